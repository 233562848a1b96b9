(** C83: quality checks of the segmentation command. *)
From Coq Require Import QArith.
From Verif Require Import PropTeiRead Base ModelTags ModelTei ModelTeiDoc ModelJoined ModelClusters ModelTarget ModelMapping ModelFuzzyMatch
  ModelWordMatch ModelFuzzySearch ModelChecks ModelSegmentation ModelSegChecks PropMapping PropWordMatch PropFuzzySearch PropChecks.
Open Scope list_scope.
Open Scope nat_scope.

(** ** Specification *)
(** [e] is the last entry that lists the field *)
Definition last_listed (m : list (str * list str)) (f e : str) : Prop :=
  exists p fs q, m = p ++ (e, fs) :: q /\ In f fs /\ forall x, In x q -> ~ In f (snd x).
(** [fields] enumerates the fields to check *)
Definition enumerates (fields matching required : list str) : Prop := forall f, In f fields <-> checked f matching required.

(** ** Which entity *)
Lemma dict_get_app_some {A} (a b : list (str * A)) k : dict_get k (a ++ b) = match dict_get k a with Some v => Some v | None => dict_get k b end.
Proof. induction a as [|[k' v'] a IH]; [reflexivity|]. cbn [app dict_get]. destruct (streq k k'); [reflexivity | apply IH]. Qed.
Lemma dict_get_const (e f : str) fs : dict_get f (rev (map (fun g => (g, e)) fs)) = if mem f fs then Some e else None.
Proof.
  induction fs as [|g fs IH]; [reflexivity|]. cbn [map rev mem existsb]. rewrite dict_get_app_some, IH. fold (mem f fs). cbn [dict_get].
  destruct (mem f fs), (streq f g); reflexivity.
Qed.
(** a field is looked for under the tag that the annotator gives to its lines: the last
    entry that lists it *)
Theorem C83_entity m f e : (dict_get f (expected_entities m) = Some e <-> last_listed m f e)
  /\ dict_get f (expected_entities m) = segmentation_tag_of m (Some f).
Proof.
  assert (S : dict_get f (expected_entities m) = segmentation_tag_of m (Some f)).
  { unfold expected_entities, segmentation_tag_of. rewrite dict_update_get. cbn [dict_get].
    induction m as [|[k fs] m IH] using rev_ind; [reflexivity|].
    rewrite flat_map_app, rev_app_distr, rev_app_distr. cbn [flat_map rev app find fst snd]. rewrite app_nil_r, dict_get_app_some, dict_get_const.
    destruct (mem f fs); [reflexivity | exact IH]. }
  split; [|exact S]. rewrite S. clear S. unfold segmentation_tag_of, last_listed.
  induction m as [|[k fs] m IH] using rev_ind.
  - cbn. split; [discriminate|]. intros ([|] & ? & ? & Q & _); discriminate.
  - rewrite rev_app_distr. cbn [rev app find fst snd]. destruct (mem f fs) eqn:M.
    + apply mem_In in M. cbn [option_map fst]. split.
      * intros [= <-]. exists m, fs, []. repeat split; [exact M | intros x []].
      * intros (p & fs' & q & E & Hf & Hq). destruct q as [|x q _] using rev_ind.
        -- apply app_inj_tail in E as [_ [= -> _]]. reflexivity.
        -- exfalso. change (p ++ (e, fs') :: q ++ [x]) with (p ++ ((e, fs') :: q) ++ [x]) in E. rewrite app_assoc in E. apply app_inj_tail in E as [_ <-].
           apply (Hq (k, fs)); [apply in_or_app; right; now left | exact M].
    + apply mem_nIn in M. rewrite IH. split.
      * intros (p & fs' & q & -> & Hf & Hq). exists p, fs', (q ++ [(k, fs)]). split; [now rewrite <- app_assoc|]. split; [exact Hf|].
        intros x Hx. apply in_app_or in Hx as [Hx|[<-|[]]]; [now apply Hq | exact M].
      * intros (p & fs' & q & E & Hf & Hq). destruct q as [|x q _] using rev_ind.
        -- apply app_inj_tail in E as [_ [= <- <-]]. contradiction.
        -- change (p ++ (e, fs') :: q ++ [x]) with (p ++ ((e, fs') :: q) ++ [x]) in E. rewrite app_assoc in E. apply app_inj_tail in E as [-> <-].
           exists p, fs', q. split; [reflexivity|]. split; [exact Hf|]. intros y Hy. apply Hq, in_or_app. now left.
Qed.

Section Decision.
Variable sp alpha : N -> bool.
Variable lsm : str -> str -> list block.
Variable words : list str -> list str -> list block.
Hypothesis Hlsm : lsm_ok lsm.
Hypothesis Hwords : words_ok words.
Let pass := seg_passing sp alpha lsm words.
(** the search in the joined text of an entity *)
Definition occurs (d : doc) (e v : str) (r : fmr) : Prop :=
  let joined := join_str (u " ") (entity_texts sp e d) in
  fuzzy_search lsm words alpha (S (length joined)) joined v (8 # 10) 5 1 0 None = Ok (Some r).
(** the check of one value succeeds *)
Definition value_ok (d : doc) (m : list (str * list str)) (f v : str) : Prop :=
  exists e, last_listed m f e /\ entity_texts sp e d <> [] /\ exists r, occurs d e v r.

(** nothing to check: the document passes *)
Theorem C83_nothing d ts m : pass d [] [] ts m = Ok true.
Proof. reflexivity. Qed.
(** the same errors as for the other commands (C40) *)
Theorem C83_error d fields matching required ts m : enumerates fields matching required -> (exists f, checked f matching required) ->
  (ts = [] \/ exists f, checked f matching required /\ ~ checkable f ts) ->
  pass d fields required ts m = Err RuntimeError.
Proof using.
  intros He (f & Hf) H. unfold pass, seg_passing. apply He in Hf. destruct fields as [|f0 fs]; [easy|].
  destruct ts as [|t ts]; [reflexivity|]. destruct H as [H|(g & Hg & Hc)]; [discriminate|].
  rewrite (proj2 (required_values_spec (t :: ts) (f0 :: fs))); [reflexivity|]. exists g. split; [now apply He | exact Hc].
Qed.

Lemma search_total h n : exists r, fuzzy_search lsm words alpha (S (length h)) h n (8 # 10) 5 1 0 None = Ok r.
Proof using Hlsm Hwords.
  unfold fuzzy_search. assert (T : exists r, fuzzy_search_chunks lsm words alpha (S (length h)) h n (8 # 10) 5 1 0 None = Ok r).
  { apply (C32_search lsm words alpha Hlsm Hwords); [lia | unfold slen; lia | discriminate]. }
  destruct T as [[l|] E]; rewrite E; cbn [bind]; [|eauto].
  destruct (C34_positions lsm words alpha Hlsm Hwords (S (length h)) h n (8 # 10) 5 1 0 None l) as (m & -> & _);
    [lia | lia | unfold slen; lia | discriminate | exact E |]. cbn. eauto.
Qed.
(** one step of the loop *)
Lemma seg_values_step d m f v l :
  seg_values alpha lsm words (grouped (entities sp d)) (expected_entities m) ((f, v) :: l) =
  match segmentation_tag_of m (Some f) with
  | None => Err KeyError
  | Some e =>
      match entity_texts sp e d with
      | [] => Ok false
      | actual => do b <- value_found alpha lsm words (join_str (u " ") actual) v ;;
                  if b then seg_values alpha lsm words (grouped (entities sp d)) (expected_entities m) l else Ok false
      end
  end.
Proof using.
  cbn [seg_values]. rewrite (proj2 (C83_entity m f [])). destruct (segmentation_tag_of m (Some f)) as [e|]; [|reflexivity].
  rewrite grouped_spec. unfold named. fold (entity_texts sp e d). destruct (entity_texts sp e d); reflexivity.
Qed.
Lemma last_tag m f e : last_listed m f e <-> segmentation_tag_of m (Some f) = Some e.
Proof using. destruct (C83_entity m f e) as [H1 H2]. rewrite <- H1, H2. reflexivity. Qed.
Lemma seg_values_spec d m l : exists r, seg_values alpha lsm words (grouped (entities sp d)) (expected_entities m) l = r
  /\ (r = Ok true <-> forall f v, In (f, v) l -> value_ok d m f v)
  /\ (r = Ok true \/ r = Ok false \/ r = Err KeyError)
  /\ (r = Err KeyError -> exists f v, In (f, v) l /\ forall e, ~ last_listed m f e).
Proof using Hlsm Hwords.
  induction l as [|[f v] l (r & IH1 & IH2 & IH3 & IH4)].
  - exists (Ok true). split; [reflexivity|]. split; [|split; [now left | discriminate]]. split; [intros _ f v [] | reflexivity].
  - eexists. split; [reflexivity|]. rewrite seg_values_step, IH1. destruct (segmentation_tag_of m (Some f)) as [e|] eqn:T.
    2:{ split; [|split; [auto|]].
        - split; [discriminate|]. intros H. destruct (H f v (or_introl eq_refl)) as (e & He & _). apply last_tag in He. congruence.
        - intros _. exists f, v. split; [now left|]. intros e He. apply last_tag in He. congruence. }
    assert (OK : value_ok d m f v <-> entity_texts sp e d <> [] /\ exists x, occurs d e v x).
    { split.
      - intros (e' & He' & H). apply last_tag in He'. rewrite He' in T. injection T as ->. exact H.
      - intros H. exists e. split; [now apply last_tag | exact H]. }
    assert (F : forall P : Prop, ~ value_ok d m f v ->
      (@Ok bool false = Ok true <-> forall f' v', In (f', v') ((f, v) :: l) -> value_ok d m f' v') /\ (@Ok bool false = Ok true \/ @Ok bool false = Ok false \/ @Ok bool false = Err KeyError)
      /\ (@Ok bool false = Err KeyError -> P)).
    { intros P N. split; [|split; [auto|discriminate]]. split; [discriminate|]. intros H. exfalso. apply N, H. now left. }
    destruct (entity_texts sp e d) as [|x k] eqn:X.
    + apply F. rewrite OK. now intros [N _].
    + unfold value_found. unfold occurs in OK. rewrite X in OK. destruct (search_total (join_str (u " ") (x :: k)) v) as [y Y]. rewrite Y in *. cbn [bind].
      destruct y as [y|].
      * assert (V : value_ok d m f v) by (apply OK; split; [easy | eauto]). split; [|split; [exact IH3|]].
        -- rewrite IH2. split; [intros H f' v' [[= <- <-]|I]; [exact V | now apply H] | intros H f' v' I; apply H; now right].
        -- intros E. destruct (IH4 E) as (f' & v' & I & H). exists f', v'. split; [now right | exact H].
      * apply F. rewrite OK. intros [_ [z Z]]. discriminate.
Qed.

(** whatever the order of the fields: the document passes exactly if every required
    field has a value, and every value is found in the text of the entity of its field *)
Theorem C83_passes d fields matching required ts m : enumerates fields matching required -> ts <> [] ->
  (forall f, checked f matching required -> checkable f ts) ->
  (pass d fields required ts m = Ok true <->
     (forall f, In f required -> target_values f ts <> [])
     /\ (forall f v, checked f matching required -> target_values f ts = [VOne v] -> value_ok d m f v))
  /\ (pass d fields required ts m = Ok true \/ pass d fields required ts m = Ok false \/ pass d fields required ts m = Err KeyError)
  /\ (pass d fields required ts m = Err KeyError ->
        exists f, checked f matching required /\ target_values f ts <> [] /\ forall e, ~ last_listed m f e).
Proof using Hlsm Hwords.
  intros He Hts Hc. unfold pass, seg_passing. destruct fields as [|f0 fs].
  - split; [|split; [auto|discriminate]]. split; [|reflexivity]. intros _. split.
    + intros f Hf. exfalso. apply (proj2 (He f)). now right.
    + intros f v Hf. exfalso. now apply He in Hf.
  - remember (f0 :: fs) as fields eqn:E. clear E. destruct ts as [|t ts]; [easy|]. remember (t :: ts) as tt eqn:E. clear E t ts.
    destruct (proj1 (required_values_spec tt fields)) as (vs & V1 & V2 & V3); [intros; now apply Hc, He|]. rewrite V1. cbn [bind].
    assert (K : forall f, In f (map fst vs) <-> checked f matching required /\ target_values f tt <> []).
    { intros f. rewrite in_map_iff. split.
      - intros ([f' v] & <- & H). apply V3 in H as [H1 H2]. cbn [fst]. split; [now apply He | congruence].
      - intros [H1 H2]. destruct (Hc f H1) as [Q|[v Q]]; [contradiction|]. exists (f, v). split; [reflexivity|]. apply V3. split; [now apply He | exact Q]. }
    destruct (existsb _ required) eqn:X.
    + split; [|split; [auto|discriminate]]. split; [discriminate|]. intros [H _]. exfalso.
      apply existsb_exists in X as (f & Hf & X). apply negb_true_iff, mem_nIn in X. apply X, K. split; [now right | now apply H].
    + destruct (seg_values_spec d m vs) as (r & -> & R1 & R2 & R3). split; [|split; [exact R2|]].
      * rewrite R1. split.
        -- intros H. split.
           ++ intros f Hf. assert (Q : In f (map fst vs)); [|now apply K in Q]. destruct (mem f (map fst vs)) eqn:M; [now apply mem_In|].
              exfalso. assert (existsb (fun f => negb (mem f (map fst vs))) required = true); [|congruence]. apply existsb_exists. exists f. split; [exact Hf | now rewrite M].
           ++ intros f v Hf Hv. apply H, V3. split; [now apply He | exact Hv].
        -- intros [_ H] f v I. apply V3 in I as [I1 I2]. apply H; [now apply He | exact I2].
      * intros E. destruct (R3 E) as (f & v & I & N). exists f. split; [|split; [|exact N]].
        -- apply V3 in I as [I _]. now apply He.
        -- apply V3 in I as [_ I]. congruence.
Qed.
(** so, if every checked field that has a value is listed, there is no error and the order
    of the fields does not matter *)
Theorem C83_listed d fields fields' matching required ts m : enumerates fields matching required -> enumerates fields' matching required -> ts <> [] ->
  (forall f, checked f matching required -> checkable f ts) ->
  (forall f, checked f matching required -> target_values f ts <> [] -> exists e, last_listed m f e) ->
  exists b, pass d fields required ts m = Ok b /\ pass d fields' required ts m = Ok b.
Proof using Hlsm Hwords.
  intros H H' Hts Hc Hl. destruct (C83_passes d fields matching required ts m H Hts Hc) as (A1 & A2 & A3).
  destruct (C83_passes d fields' matching required ts m H' Hts Hc) as (B1 & B2 & B3).
  assert (N : forall r : res bool, (r = Err KeyError -> exists f, checked f matching required /\ target_values f ts <> [] /\ forall e, ~ last_listed m f e) -> r <> Err KeyError).
  { intros r G E. destruct (G E) as (f & F1 & F2 & F3). destruct (Hl f F1 F2) as [e Q]. exact (F3 e Q). }
  pose proof (N _ A3) as NA. pose proof (N _ B3) as NB. clear N A3 B3.
  destruct A2 as [A2|[A2|A2]]; [| |contradiction]; (destruct B2 as [B2|[B2|B2]]; [| |contradiction]); [eauto | | |eauto]; exfalso.
  - assert (pass d fields' required ts m = Ok true) by tauto. congruence.
  - assert (pass d fields required ts m = Ok true) by tauto. congruence.
Qed.
(** a value that is found has characters in common with the text, in the same order *)
Theorem C83_found d e v r : occurs d e v r -> good (join_str (u " ") (entity_texts sp e d)) v (8 # 10) 0 r /\ f_blocks r <> [].
Proof using Hlsm Hwords.
  unfold occurs. cbn zeta. set (h := join_str _ _). unfold fuzzy_search. destruct (fuzzy_search_chunks _ _ _ _ _ _ _ _ _ _ _) as [[l|]|] eqn:E; cbn [bind]; try discriminate.
  destruct (C34_positions lsm words alpha Hlsm Hwords (S (length h)) h v (8 # 10) 5 1 0 None l) as (m & -> & G);
    [lia | lia | unfold slen; lia | discriminate | exact E |]. cbn [merge_results bind map concat]. rewrite app_nil_r. intros [= <-]. destruct G as (G1 & G2 & G3 & G4 & G5).
  split; [|cbn [f_blocks]; now apply G5]. unfold good. cbn [f_a f_b f_blocks]. repeat split; auto.
Qed.
End Decision.

(** ** Examples *)
Definition stok (s : string) (t : ostr) : tok := mkTok (u s) t None None None (Some (u " ")).
Definition sdoc : doc := [[stok "Some" (Some (u "b-front")); stok "title" (Some (u "i-front"))]; [stok "Text" (Some (u "b-body"))]].
Definition smap : list (str * list str) := [(u "front", [u "title"; u "abstract"]); (u "body", [u "figure"])].
Definition starget (f v : string) : target := mkTarget (u f) (VOne (u v)).
Definition spass := seg_passing ascii_space ascii_alpha prefix_lsm first_word.
Example C83_ex :
  spass sdoc [u "title"] [u "title"] [starget "title" "Some title"] smap = Ok true
  /\ spass sdoc [u "figure"] [u "figure"] [starget "figure" "Some title"] smap = Ok false
  /\ spass sdoc [u "title"; u "doi"] [u "doi"] [starget "title" "Some title"] smap = Ok false
  /\ spass sdoc [u "doi"; u "title"] [] [starget "title" "Some title"] smap = Ok true
  /\ lsm_ok prefix_lsm /\ words_ok first_word /\ last_listed smap (u "figure") (u "body").
Proof.
  do 4 (split; [vm_compute; reflexivity|]). split; [apply prefix_lsm_ok|]. split; [apply C30_ex_ok|].
  exists [(u "front", [u "title"; u "abstract"])], [u "figure"], []. split; [reflexivity|]. split; [now left | intros x []].
Qed.
(** a checked field that is not listed is an error or not, depending on the order in which
    the set of fields is iterated over, so on the hashes of strings *)
Theorem C83_order_refuted : exists d fields fields' matching required ts m,
  enumerates fields matching required /\ enumerates fields' matching required
  /\ spass d fields required ts m = Err KeyError /\ spass d fields' required ts m = Ok false.
Proof.
  exists sdoc, [u "doi"; u "figure"], [u "figure"; u "doi"], [], [u "doi"; u "figure"], [starget "doi" "10.1234"; starget "figure" "Other"], smap.
  split; [|split; [|split; vm_compute; reflexivity]].
  - intros f. unfold checked. split; [now right | now intros [[]|H]].
  - intros f. unfold checked. cbn [In]. tauto.
Qed.

Print Assumptions C83_entity.
Print Assumptions C83_error.
Print Assumptions C83_passes.
Print Assumptions C83_listed.
Print Assumptions C83_found.
Print Assumptions C83_order_refuted.
