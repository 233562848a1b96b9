(** C12: the simple matcher; C52: sub tag only annotation *)
From Verif Require Import Base ModelTags ProofTags ModelTokenize ModelTei ModelTeiDoc SpecTeiWrite SpecTeiDoc ProofTeiDoc PropTeiDoc
  ModelJoined ModelExtend PropExtend ModelClusters PropClusters ModelTarget ModelReference PropReferenceDoc ModelSimpleMatch.
Open Scope nat_scope.

(* ---------------------------------------------------------------- *)
(** ** Specification *)
(** the tags that may be given for a field *)
Definition tag_for (c : config) (name : str) (v : ostr) : Prop :=
  if cf_begin_prefix c
  then (name = [] /\ v = Some []) \/ v = Some (u "b-" ++ name) \/ v = Some (u "i-" ++ name)
  else v = Some name.
Definition some_tag_for (c : config) (names : list str) (v : ostr) : Prop := exists n, In n names /\ tag_for c n v.
Definition target_names (l : list tann) : list str := map an_name l.
Definition sub_names (l : list tann) : list str := flat_map (fun a => map fst (an_subs a)) l.
(** a tag is only given where there is none *)
Definition only_added (allowed : ostr -> Prop) (v v' : ostr) : Prop := v' = v \/ truthy v = false /\ allowed v'.
(** a document and the one after annotation, token by token *)
Definition doc_rel (R : tok -> tok -> Prop) (d d' : doc) : Prop :=
  forall q, match tok_at d q with
            | None => tok_at d' q = None
            | Some t => exists t', tok_at d' q = Some t' /\ same_text t t' /\ R t t'
            end.
Definition added (c : config) (targets : list tann) (t t' : tok) : Prop :=
  only_added (some_tag_for c (target_names targets)) (tag t) (tag t') /\
  only_added (some_tag_for c (sub_names targets)) (sub t) (sub t').

(* ---------------------------------------------------------------- *)
(** ** Relations between documents *)
Lemma at_pos_eq d p : at_pos d p = tok_at d p.
Proof. reflexivity. Qed.
Lemma doc_rel_refl (R : tok -> tok -> Prop) d : (forall t, R t t) -> doc_rel R d d.
Proof. intros H q. destruct (tok_at d q) as [t|]; [|reflexivity]. exists t. repeat split; auto. Qed.
Lemma doc_rel_trans (R : tok -> tok -> Prop) d1 d2 d3 : (forall a b c, R a b -> R b c -> R a c) ->
  doc_rel R d1 d2 -> doc_rel R d2 d3 -> doc_rel R d1 d3.
Proof.
  intros T H1 H2 q. specialize (H1 q). specialize (H2 q). destruct (tok_at d1 q) as [t|].
  - destruct H1 as (t' & E & S & H). rewrite E in H2. destruct H2 as (t'' & E' & S' & H'). exists t''.
    split; [exact E'|]. split; [eapply same_text_trans; eassumption|eapply T; eassumption].
  - now rewrite H1 in H2.
Qed.
Lemma doc_rel_impl (R S : tok -> tok -> Prop) d d' : (forall a b, R a b -> S a b) -> doc_rel R d d' -> doc_rel S d d'.
Proof. intros H K q. specialize (K q). destruct (tok_at d q); [|exact K]. destruct K as (t' & E & E' & K). eauto 6. Qed.

Lemma only_added_refl A v : only_added A v v.
Proof. now left. Qed.
Lemma only_added_trans A a b c : only_added A a b -> only_added A b c -> only_added A a c.
Proof. intros [->|[H1 H2]] [->|[H3 H4]]; unfold only_added; auto. Qed.
Lemma only_added_weaken (A B : ostr -> Prop) v v' : (forall x, A x -> B x) -> only_added A v v' -> only_added B v v'.
Proof. intros H [->|[H1 H2]]; unfold only_added; auto. Qed.

Section Sets.
Variable sp : N -> bool.
Lemma tok_at_set_none lv p v d q : tok_at d q = None -> tok_at (set_tag sp lv p v d) q = None.
Proof.
  intros H. destruct (tok_at (set_tag sp lv p v d) q) as [t'|] eqn:E; [|reflexivity]. exfalso.
  unfold tok_at, set_tag in *. cbn [fst snd] in *.
  destruct (Nat.eq_dec (fst q) (fst p)) as [e|e].
  - rewrite e in *. rewrite update_nth_same in E. destruct (nth_error d (fst p)) as [l|]; [|discriminate]. cbn in E.
    assert (snd q < length (set_tag_line sp lv (snd p) v l)) by (apply nth_error_Some; congruence).
    rewrite set_tag_line_length in H0. apply nth_error_Some in H0. contradiction.
  - rewrite update_nth_other in E by congruence. congruence.
Qed.
Lemma tok_at_only lv p v d q : tok_at (set_tag_only_at lv p v d) q =
  option_map (fun t => if Nat.eqb (fst p) (fst q) && Nat.eqb (snd p) (snd q) then set_tag_only lv v t else t) (tok_at d q).
Proof.
  unfold set_tag_only_at, tok_at. destruct (Nat.eqb_spec (fst p) (fst q)) as [e|e].
  - rewrite e, update_nth_same. destruct (nth_error d (fst q)) as [l|]; [|reflexivity]. cbn [option_map andb].
    destruct (Nat.eqb_spec (snd p) (snd q)) as [e'|e'].
    + rewrite e', update_nth_same. reflexivity.
    + rewrite update_nth_other by congruence. destruct (nth_error l (snd q)); reflexivity.
  - rewrite update_nth_other by congruence. destruct (nth_error d (fst q)) as [l|]; [|reflexivity]. cbn [option_map andb].
    destruct (nth_error l (snd q)); reflexivity.
Qed.
(** a tag set at one position *)
Lemma set_any lv p v d q t : tok_at d q = Some t -> exists t', tok_at (set_tag sp lv p v d) q = Some t' /\ same_text t t' /\
  (forall lv', given lv' t' = if lv_eqb lv lv' && (Nat.eqb (fst p) (fst q) && Nat.eqb (snd p) (snd q)) then v else given lv' t) /\
  (lv = LSub -> ptag t' = ptag t).
Proof.
  intros H. destruct (tok_at_set sp lv p v d q t H) as (t' & E & S & G & Rm). exists t'. repeat split; auto; try apply S.
  intros ->. destruct (Rm LMain) as [E'|(y & _ & _ & _ & [[=]|[=]] & _)]. exact E'.
Qed.
End Sets.

(* ---------------------------------------------------------------- *)
(** ** What holds for every relation that is kept by the single steps *)
Section Generic.
Variable sp wd : N -> bool.
Variable lower escape_re : str -> str.
Variable re_search : str -> str -> option Z.
Variable search_chunks : str -> str -> nat -> res (option (list irange)).
Variable search_all : str -> str -> list (res irange).
Variable c : config.
Variable sub_only : bool.
Variable targets : list tann.
Variable Q : doc -> doc -> Prop.
Hypothesis Q_refl : forall d, Q d d.
Hypothesis Q_trans : forall a b e, Q a b -> Q b e -> Q a e.
Hypothesis Q_main : forall d0 d p name b, sub_only = false -> Q d0 d -> untagged d0 p = true -> In name (target_names targets) ->
  Q d0 (set_main sp c p (full_tag c name b) d).
Hypothesis Q_sub : forall d0 d p name b, cf_use_sub c = true -> Q d0 d -> truthy (sub_tag d0 p) = false -> In name (sub_names targets) ->
  Q d0 (set_tag sp LSub p (full_tag c name b) d).

Lemma fold_inv {A B} (P : B -> Prop) (f : B -> A -> B) l : (forall b a, In a l -> P b -> P (f b a)) -> forall b, P b -> P (fold_left f l b).
Proof.
  induction l as [|a l IH]; intros H b Hb; [exact Hb|]. cbn [fold_left]. apply IH.
  - intros b' a' Ha. apply H. now right.
  - apply H; [now left|exact Hb].
Qed.
Lemma foldM_inv {A B} (P : B -> Prop) (f : B -> A -> res B) l : (forall b a b', In a l -> P b -> f b a = Ok b' -> P b') ->
  forall b b', P b -> foldM f b l = Ok b' -> P b'.
Proof.
  induction l as [|a l IH]; intros H b b' Hb E; cbn [foldM] in E; [injection E as <-; exact Hb|].
  destruct (f b a) as [b1|] eqn:E1; [|discriminate]. cbn [bind] in E. eapply IH; [|eapply H; [now left|exact Hb|exact E1]|exact E].
  intros x y z Hy. apply H. now right.
Qed.
Lemma firsts_in {A} (l : list A) x : In x (firsts l) -> In (fst x) l.
Proof.
  destruct l as [|y l]; [easy|]. cbn [firsts]. intros [<-|H]; [now left|]. apply in_map_iff in H as (z & <- & H). now right.
Qed.
Lemma update_range_Q text r name d : In name (target_names targets) -> Q d (update_range sp c sub_only text r name d).
Proof.
  intros Hn. unfold update_range. destruct sub_only eqn:Es; [apply Q_refl|].
  apply (fold_inv (fun x => Q d x)); [|apply Q_refl]. intros b a Ha Hb. apply firsts_in, filter_In in Ha as [_ Ha].
  now apply Q_main.
Qed.
Lemma first_free_Q sub_text name rs : cf_use_sub c = true -> In name (sub_names targets) -> forall d d', first_free sp c sub_text name rs d = Ok d' -> Q d d'.
Proof.
  intros Hu Hn. induction rs as [|[r|e] rs IH]; intros d d' H; cbn [first_free] in H; [injection H as <-; apply Q_refl| |discriminate].
  destruct (existsb _ _) eqn:E; [now apply IH|]. injection H as <-.
  apply (fold_inv (fun x => Q d x)); [|apply Q_refl]. intros b a Ha Hb. apply firsts_in in Ha. apply Q_sub; auto.
  destruct (truthy (sub_tag d (fst a))) eqn:E'; [|reflexivity].
  assert (X : existsb (fun p => truthy (sub_tag d p)) (all_tokens_between [10%N] [] sub_text r) = true) by (apply existsb_exists; eauto).
  congruence.
Qed.
Lemma sub_annotations_Q text r a d d' : cf_use_sub c = true -> In a targets -> sub_annotations sp lower search_all c text r (an_subs a) d = Ok d' -> Q d d'.
Proof.
  intros Hu Ha. unfold sub_annotations. destruct (an_subs a) as [|s0 subs] eqn:E; [intros [= <-]; apply Q_refl|]. intros H.
  revert H. generalize [wrap sp (fun s => s) d (all_tokens_between [10%N] [] text r)] as sub_text. intros sub_text H.
  eapply (foldM_inv (fun x => Q d x)); [|apply Q_refl|exact H]. intros b nv b' Hin Hb Hs.
  eapply Q_trans; [exact Hb|]. unfold sub_step in Hs. destruct (snd nv); [|discriminate].
  eapply first_free_Q; [exact Hu| |exact Hs]. unfold sub_names. apply in_flat_map. exists a. split; [exact Ha|]. rewrite E. now apply in_map.
Qed.
Lemma range_step_Q text a d r d' : In a targets ->
  range_step sp lower escape_re re_search search_all c sub_only text a d r = Ok d' -> Q d d'.
Proof.
  intros Ha H. unfold range_step in H. assert (Hu : cf_use_sub c = true \/ cf_use_sub c = false) by (case (cf_use_sub c); auto). destruct Hu as [Hu|Hu]; rewrite Hu in H.
  - eapply Q_trans; [apply update_range_Q|eapply sub_annotations_Q; [exact Hu|exact Ha|exact H]]. now apply in_map.
  - injection H as <-. apply update_range_Q. now apply in_map.
Qed.
Lemma ranges_Q text a rs d d' : In a targets ->
  foldM (range_step sp lower escape_re re_search search_all c sub_only text a) d rs = Ok d' -> Q d d'.
Proof.
  intros Ha H. eapply (foldM_inv (fun x => Q d x)); [|apply Q_refl|exact H]. intros b r b' _ Hb Hs.
  eapply Q_trans; [exact Hb|]. eapply range_step_Q; eassumption.
Qed.
Lemma process_one_Q all s a s' : In a targets ->
  process_one sp wd lower escape_re re_search search_chunks search_all c sub_only all s a = Ok s' ->
  Q (st_doc s) (st_doc s') /\ (st_left s' = st_left s \/ st_left s' = st_left s ++ [a]).
Proof.
  intros Ha. unfold process_one. destruct (matching_ranges _ _ _ _ _ _ a) as [[|r rs]|] eqn:E1; cbn [bind]; [| |discriminate].
  - destruct (ostreq _ _); [intros [= <-]; split; [apply Q_refl|now right]|].
    destruct (matching_ranges _ _ _ _ _ _ a) as [[|r rs]|] eqn:E2 in |- *; cbn [bind]; [|
      |discriminate]; [intros [= <-]; split; [apply Q_refl|now right]|].
    destruct (merge_index_ranges _) as [m|]; [|discriminate]. cbn [bind].
    destruct (foldM _ _ _) as [d'|] eqn:E3; [|discriminate]. cbn [bind]. intros [= <-]. cbn. split; [|now left].
    eapply ranges_Q; eassumption.
  - destruct (foldM _ _ _) as [d'|] eqn:E3; [|discriminate]. cbn [bind]. intros [= <-]. cbn. split; [|now left].
    eapply ranges_Q; eassumption.
Qed.
Lemma process_targets_Q ts d s : incl ts targets ->
  process_targets sp wd lower escape_re re_search search_chunks search_all c sub_only ts d = Ok s ->
  Q d (st_doc s) /\ incl (st_left s) ts /\ length (st_left s) <= length ts.
Proof.
  intros Hi. unfold process_targets. generalize (initial_sequences sp d) as all. intros all.
  assert (G : forall ts s0, incl ts targets -> forall s, foldM (process_one sp wd lower escape_re re_search search_chunks search_all c sub_only all) s0 ts = Ok s ->
    Q (st_doc s0) (st_doc s) /\ incl (st_left s) (st_left s0 ++ ts) /\ length (st_left s) <= length (st_left s0) + length ts).
  { clear Hi ts d s. induction ts as [|a ts IH]; intros s0 Hi s H; cbn [foldM] in H.
    - injection H as <-. rewrite app_nil_r. split; [apply Q_refl|]. split; [apply incl_refl|cbn; lia].
    - destruct (process_one _ _ _ _ _ _ _ _ _ all s0 a) as [s1|] eqn:E; [|discriminate]. cbn [bind] in H.
      destruct (process_one_Q all s0 a s1) as [H1 H2]; [apply Hi; now left|exact E|].
      destruct (IH s1) with (s := s) as (H3 & H4 & H5); [intros x Hx; apply Hi; now right|exact H|].
      split; [eapply Q_trans; eassumption|]. destruct H2 as [H2|H2]; rewrite H2 in *.
      + split; [|cbn; lia]. intros x Hx. apply H4, in_app_or in Hx. apply in_or_app. cbn. tauto.
      + split; [|rewrite app_length in H5; cbn in *; lia]. intros x Hx. apply H4, in_app_or in Hx. apply in_or_app. rewrite in_app_iff in Hx. cbn in *. tauto. }
  intros H. destruct (G ts (mkState d all None []) Hi s H) as (H1 & H2 & H3). auto.
Qed.
Lemma loop_Q fuel : forall ts d d', incl ts targets ->
  annotate_loop sp wd lower escape_re re_search search_chunks search_all c sub_only fuel ts d = Ok d' -> Q d d'.
Proof.
  induction fuel as [|f IH]; intros ts d d' Hi H.
  - destruct ts; [injection H as <-; apply Q_refl|discriminate].
  - destruct ts as [|a ts]; [injection H as <-; apply Q_refl|]. cbn [annotate_loop] in H.
    destruct (process_targets _ _ _ _ _ _ _ _ _ (a :: ts) d) as [s|] eqn:E; [|discriminate]. cbn [bind] in H.
    destruct (process_targets_Q _ _ _ Hi E) as (H1 & H2 & H3).
    destruct (Nat.eqb _ _); [injection H as <-; exact H1|].
    eapply Q_trans; [exact H1|]. eapply IH; [|exact H]. eapply incl_tran; eassumption.
Qed.
End Generic.

(* ---------------------------------------------------------------- *)
(** ** C12 *)
Section C12.
Variable sp wd : N -> bool.
Variable lower escape_re : str -> str.
Variable re_search : str -> str -> option Z.
Variable search_chunks : str -> str -> nat -> res (option (list irange)).
Variable search_all : str -> str -> list (res irange).
Variable c : config.
Notation simple := (simple_annotate sp wd lower escape_re re_search search_chunks search_all c).
Notation loop := (annotate_loop sp wd lower escape_re re_search search_chunks search_all c).

Lemma full_tag_for name b : tag_for c name (full_tag c name b).
Proof.
  unfold tag_for, full_tag. destruct (cf_begin_prefix c); [|destruct name; reflexivity].
  destruct name as [|x n]; [left; destruct b; auto|]. right. destruct b; [left|right]; reflexivity.
Qed.
Lemma added_refl targets t : added c targets t t.
Proof. split; apply only_added_refl. Qed.
Lemma added_trans targets x y z : added c targets x y -> added c targets y z -> added c targets x z.
Proof. intros [A B] [C D]. split; eapply only_added_trans; eassumption. Qed.
Lemma loop_added targets sub_only fuel d d' : loop sub_only fuel targets d = Ok d' -> doc_rel (added c targets) d d'.
Proof.
  apply loop_Q with (targets := targets); [| | | |apply incl_refl].
  - intros x. apply doc_rel_refl. apply added_refl.
  - intros a b e. apply doc_rel_trans. apply added_trans.
  - intros d0 x p name b _ H U Hn q. specialize (H q). unfold untagged, main_tag in U. rewrite at_pos_eq in U.
    assert (K : some_tag_for c (target_names targets) (full_tag c name b)) by (exists name; split; [exact Hn|apply full_tag_for]).
    destruct (tok_at d0 q) as [t|] eqn:Eq.
    + destruct H as (t1 & E1 & S1 & [A B]). unfold set_main. destruct (cf_preserve_sub c).
      * rewrite tok_at_only, E1. cbn [option_map]. eexists. split; [reflexivity|].
        destruct (Nat.eqb (fst p) (fst q) && Nat.eqb (snd p) (snd q)) eqn:Ep; [|repeat split; auto; apply S1].
        apply pos_eqb in Ep. subst q. rewrite Eq in U. apply negb_true_iff in U.
        split; [exact S1|]. split; [right; auto|exact B].
      * destruct (set_any sp LMain p (full_tag c name b) x q t1 E1) as (t2 & E2 & S2 & G & _). exists t2. split; [exact E2|].
        split; [eapply same_text_trans; eassumption|]. pose proof (G LMain) as G1. pose proof (G LSub) as G2. cbn in G1, G2.
        split; [|rewrite G2; exact B]. rewrite G1.
        destruct (Nat.eqb (fst p) (fst q) && Nat.eqb (snd p) (snd q)) eqn:Ep; [|exact A].
        apply pos_eqb in Ep. subst q. rewrite Eq in U. apply negb_true_iff in U. right. auto.
    + unfold set_main. destruct (cf_preserve_sub c); [rewrite tok_at_only, H; reflexivity|now apply tok_at_set_none].
  - intros d0 x p name b _ H U Hn q. specialize (H q). unfold sub_tag in U. rewrite at_pos_eq in U.
    assert (K : some_tag_for c (sub_names targets) (full_tag c name b)) by (exists name; split; [exact Hn|apply full_tag_for]).
    destruct (tok_at d0 q) as [t|] eqn:Eq; [|now apply tok_at_set_none].
    destruct H as (t1 & E1 & S1 & [A B]).
    destruct (set_any sp LSub p (full_tag c name b) x q t1 E1) as (t2 & E2 & S2 & G & _). exists t2. split; [exact E2|].
    split; [eapply same_text_trans; eassumption|]. pose proof (G LMain) as G1. pose proof (G LSub) as G2. cbn in G1, G2.
    split; [rewrite G1; exact A|]. rewrite G2.
    destruct (Nat.eqb (fst p) (fst q) && Nat.eqb (snd p) (snd q)) eqn:Ep; [|exact B].
    apply pos_eqb in Ep. subst q. rewrite Eq in U. right. auto.
Qed.

(** Without extension to the line: for every token, the text is as it was, and the tag
    too unless there was none; then it may be the tag of a target annotation.  Likewise
    for sub tags. *)
Theorem C12_no_overwrite targets fuel d d' : cf_extend c = false -> simple false fuel targets d = Ok d' ->
  doc_rel (added c targets) d d'.
Proof.
  intros He. unfold simple_annotate. destruct (loop false fuel targets d) as [d1|] eqn:E; [|discriminate]. cbn [bind].
  rewrite He. intros [= <-]. eapply loop_added. exact E.
Qed.

(** *** Extension to the line *)
Lemma set_mains ps : forall tags d, NoDup ps -> length tags = length ps ->
  let d' := fold_left (fun d x => if truthy (snd x) then set_tag sp LMain (fst x) (snd x) d else d) (combine ps tags) d in
  forall q, match tok_at d q with
            | None => tok_at d' q = None
            | Some t => exists t', tok_at d' q = Some t' /\ same_text t t' /\ sub t' = sub t /\
                (~ In q ps -> tag t' = tag t) /\
                (forall k v, nth_error ps k = Some q -> nth_error tags k = Some v -> tag t' = if truthy v then v else tag t)
            end.
Proof.
  induction ps as [|p ps IH]; intros [|v tags] d Hn Hl; try discriminate; cbn zeta.
  - cbn. intros q. destruct (tok_at d q) as [t|]; [|reflexivity]. exists t. repeat split; auto. intros [|k] v [=].
  - injection Hl as Hl. inversion Hn as [|? ? Hp Hn']; subst. cbn [combine fold_left fst snd].
    set (d1 := if truthy v then set_tag sp LMain p v d else d). intros q. specialize (IH tags d1 Hn' Hl q). cbn zeta in IH.
    assert (K : match tok_at d q with
                | None => tok_at d1 q = None
                | Some t => exists t1, tok_at d1 q = Some t1 /\ same_text t t1 /\ sub t1 = sub t /\
                    tag t1 = if Nat.eqb (fst p) (fst q) && Nat.eqb (snd p) (snd q) && truthy v then v else tag t
                end).
    { unfold d1. destruct (tok_at d q) as [t|] eqn:Eq.
      - destruct (truthy v); [|rewrite andb_false_r; exists t; repeat split; auto].
        destruct (set_any sp LMain p v d q t Eq) as (t1 & E1 & S1 & G & _). exists t1. split; [exact E1|]. split; [exact S1|].
        pose proof (G LMain) as G1. pose proof (G LSub) as G2. cbn in G1, G2. rewrite G1, andb_true_r. auto.
      - destruct (truthy v); [now apply tok_at_set_none|exact Eq]. }
    destruct (tok_at d q) as [t|]; [|rewrite K in IH; exact IH].
    destruct K as (t1 & E1 & S1 & B1 & T1). rewrite E1 in IH. destruct IH as (t' & E' & S' & B' & N' & I').
    exists t'. split; [exact E'|]. split; [eapply same_text_trans; eassumption|]. split; [congruence|]. split.
    + intros Hq. rewrite N' by (intros H; apply Hq; now right). rewrite T1.
      destruct (Nat.eqb (fst p) (fst q) && Nat.eqb (snd p) (snd q)) eqn:Ep; [|reflexivity]. apply pos_eqb in Ep. exfalso. apply Hq. now left.
    + intros [|k] w Hk Hw; cbn in Hk, Hw.
      * injection Hk as <-. injection Hw as <-. rewrite N' by exact Hp. rewrite T1.
        replace (Nat.eqb (fst p) (fst p) && Nat.eqb (snd p) (snd p)) with true by (symmetry; now apply pos_eqb). reflexivity.
      * rewrite (I' k w Hk Hw). destruct (truthy w); [reflexivity|]. rewrite T1.
        destruct (Nat.eqb (fst p) (fst q) && Nat.eqb (snd p) (snd q)) eqn:Ep; [|reflexivity]. apply pos_eqb in Ep. subst q.
        exfalso. apply Hp. eapply nth_error_In. exact Hk.
Qed.
(** the effect of extending on the tag of a token [t] in a line of [d] *)
Definition extended (d : doc) (q : pos) (t t' : tok) : Prop :=
  sub t' = sub t /\
  (truthy (tag t) = true -> value (tag t') = value (tag t)) /\
  (truthy (tag t) = false -> tag t' = tag t \/
     exists q2 t2, fst q2 = fst q /\ tok_at d q2 = Some t2 /\ truthy (tag t2) = true /\ value (tag t') = value (tag t2)).
Definition plain_doc (d : doc) : Prop := forall q t, tok_at d q = Some t -> plain (tag t).

Lemma value_truthy v : plain v -> truthy (value v) = truthy v.
Proof. intros H. symmetry. now apply plain_truthy. Qed.
Lemma extend_line_spec d ps i : NoDup ps -> Forall (fun p => fst p = i) ps -> Forall (fun p => tok_at d p <> None) ps ->
  (forall p t, In p ps -> tok_at d p = Some t -> plain (tag t)) ->
  forall q, match tok_at d q with
            | None => tok_at (extend_line sp c d ps) q = None
            | Some t => exists t', tok_at (extend_line sp c d ps) q = Some t' /\ same_text t t' /\
                (~ In q ps -> tag t' = tag t) /\ extended d q t t'
            end.
Proof.
  intros Hn Hi Hv Hp q. unfold extend_line.
  set (em := map (fun x => (fst x, tc_extend (snd x))) (cf_tags c)).
  set (mm := map (fun x => (fst x, tc_merge (snd x))) (cf_tags c)).
  set (tags := extended_line_tags em mm true true (map (main_tag d) ps)).
  assert (Hl : length tags = length ps) by (unfold tags; rewrite C16_length; apply map_length).
  pose proof (set_mains ps tags d Hn Hl q) as H. cbn zeta in H. destruct (tok_at d q) as [t|] eqn:Eq; [|exact H].
  destruct H as (t' & E & S & B & N & I). exists t'. split; [exact E|]. split; [exact S|]. split; [exact N|].
  assert (D : In q ps \/ ~ In q ps).
  { destruct (in_dec (fun a b : pos => ltac:(decide equality; apply Nat.eq_dec)) q ps); auto. }
  destruct D as [Hq|Hq].
  2:{ unfold extended. rewrite (N Hq). auto. }
  assert (PL : Forall plain (map (main_tag d) ps)).
  { apply Forall_forall. intros v Hin. apply in_map_iff in Hin as (p & <- & Hin). unfold main_tag. rewrite at_pos_eq.
    destruct (tok_at d p) as [x|] eqn:Ex; [exact (Hp p x Hin Ex)|now left]. }
  destruct (In_nth_error ps q Hq) as [k Hk].
  assert (Hm : nth_error (map (main_tag d) ps) k = Some (tag t)).
  { rewrite nth_error_map, Hk. cbn. unfold main_tag. now rewrite at_pos_eq, Eq. }
  assert (Ht : exists v, nth_error tags k = Some v).
  { destruct (nth_error tags k) eqn:E'; [eauto|]. apply nth_error_None in E'. assert (k < length ps) by (apply nth_error_Some; congruence). lia. }
  destruct Ht as [v Ht]. split; [exact B|]. split.
  - intros T. rewrite (I k v Hk Ht). destruct (C16_value em mm true true _ k (tag t) PL Hm T) as (v' & E' & V').
    fold tags in E'. rewrite Ht in E'. injection E' as <-. destruct (truthy v); [exact V'|reflexivity].
  - intros T. rewrite (I k v Hk Ht). destruct (truthy v) eqn:Tv; [|now left]. right.
    assert (Nn : tag t = None).
    { assert (P0 : plain (tag t)) by (rewrite Forall_forall in PL; apply PL; eapply nth_error_In; exact Hm).
      destruct P0 as [P0|P0]; [exact P0|]. rewrite (plain_truthy (tag t)) in T by now right. congruence. }
    rewrite Nn in Hm.
    destruct (C16_gap em mm true true _ k v PL Hm Ht) as (j & t2 & w & J1 & J2 & J3 & J4 & _); [intros ->; discriminate|].
    rewrite nth_error_map in J1. destruct (nth_error ps j) as [q2|] eqn:Eq2; [|discriminate]. injection J1 as J1.
    unfold main_tag in J1. rewrite at_pos_eq in J1. destruct (tok_at d q2) as [x2|] eqn:Ex2; [|subst t2; discriminate]. subst t2.
    exists q2, x2. split; [|split; [exact Ex2|split; [exact J2|congruence]]].
    rewrite Forall_forall in Hi. rewrite (Hi q2), (Hi q); [reflexivity|exact Hq|eapply nth_error_In; exact Eq2].
Qed.
Lemma line_words_spec d : forall i k ps, nth_error (line_words sp i d) k = Some ps ->
  NoDup ps /\ Forall (fun p => fst p = i + k) ps /\ exists l, nth_error d k = Some l /\ ps = word_indices sp (i + k) 0 l.
Proof.
  induction d as [|l d IH]; intros i [|k] ps H; try discriminate; cbn [line_words nth_error] in H.
  - injection H as <-. rewrite Nat.add_0_r. split; [apply word_indices_NoDup|]. split; [|exists l; auto].
    apply Forall_forall. intros p Hp. apply word_indices_spec in Hp as (m & t & -> & _). reflexivity.
  - destruct (IH (S i) k ps H) as (H1 & H2 & l' & H3 & H4). replace (i + S k) with (S i + k) by lia. eauto.
Qed.
Lemma line_words_split i l d : line_words sp i (l :: d) = word_indices sp i 0 l :: line_words sp (S i) d.
Proof. reflexivity. Qed.

(** the lines are extended one after the other: only tokens of the lines so far differ *)
Lemma extend_lines_spec d : plain_doc d ->
  forall q, match tok_at d q with
            | None => tok_at (extend_lines sp c d) q = None
            | Some t => exists t', tok_at (extend_lines sp c d) q = Some t' /\ same_text t t' /\ extended d q t t'
            end.
Proof.
  intros Hp. unfold extend_lines.
  assert (G : forall ls i dc, (forall k ps, nth_error ls k = Some ps -> NoDup ps /\ Forall (fun p => fst p = i + k) ps /\ Forall (fun p => tok_at d p <> None) ps) ->
    (forall q, match tok_at d q with
            | None => tok_at dc q = None
            | Some t => exists t', tok_at dc q = Some t' /\ same_text t t' /\ extended d q t t' /\ (i <= fst q -> tag t' = tag t)
            end) ->
    forall q, match tok_at d q with
            | None => tok_at (fold_left (extend_line sp c) ls dc) q = None
            | Some t => exists t', tok_at (fold_left (extend_line sp c) ls dc) q = Some t' /\ same_text t t' /\ extended d q t t'
            end).
  { induction ls as [|ps ls IH]; intros i dc Hls Hdc.
    - cbn. intros q. specialize (Hdc q). destruct (tok_at d q); [|exact Hdc]. destruct Hdc as (t' & A & B & C & _). eauto.
    - cbn [fold_left]. apply (IH (S i)).
      + intros k ps' Hk. specialize (Hls (S k) ps' Hk). replace (S i + k) with (i + S k) by lia. exact Hls.
      + destruct (Hls 0 ps eq_refl) as (N & F & V). rewrite Nat.add_0_r in F.
        assert (V' : Forall (fun p => tok_at dc p <> None) ps).
        { eapply Forall_impl; [|exact V]. intros p Hv. cbn beta in Hv. specialize (Hdc p). destruct (tok_at d p); [|congruence].
          destruct Hdc as (t' & -> & _). discriminate. }
        assert (P' : forall p t, In p ps -> tok_at dc p = Some t -> plain (tag t)).
        { intros p t Hin Et. specialize (Hdc p). destruct (tok_at d p) as [t0|] eqn:E0; [|congruence].
          destruct Hdc as (t' & E' & _ & _ & Ht). rewrite E' in Et. injection Et as <-. rewrite Ht; [exact (Hp p t0 E0)|].
          rewrite Forall_forall in F. rewrite (F p Hin). lia. }
        intros q. pose proof (extend_line_spec dc ps i N F V' P' q) as X. pose proof (Hdc q) as Y. destruct (tok_at d q) as [t|] eqn:Eq.
        * destruct Y as (t1 & E1 & S1 & X1 & K1). rewrite E1 in X. destruct X as (t2 & E2 & S2 & N2 & X2).
          exists t2. split; [exact E2|]. split; [eapply same_text_trans; eassumption|].
          assert (D : In q ps \/ ~ In q ps).
          { destruct (in_dec (fun a b : pos => ltac:(decide equality; apply Nat.eq_dec)) q ps); auto. }
          destruct D as [Hq|Hq].
          -- rewrite Forall_forall in F. pose proof (F q Hq) as Fq. specialize (K1 (Nat.eq_le_incl _ _ (eq_sym Fq))).
             split; [|intros; lia]. destruct X2 as (B2 & T2 & U2). split; [destruct X1; congruence|]. rewrite K1 in T2, U2. split; [exact T2|].
             intros Hf. destruct (U2 Hf) as [U|(q2 & x2 & Q1 & Q2 & Q3 & Q4)]; [left; exact U|]. right.
             pose proof (Hdc q2) as Z. destruct (tok_at d q2) as [x0|] eqn:Ex0; [|congruence].
             destruct Z as (x1 & Z1 & _ & _ & Z2). rewrite Z1 in Q2. injection Q2 as <-. rewrite Z2 in Q3, Q4 by lia.
             exists q2, x0. auto.
          -- pose proof (N2 Hq) as N3. split.
             ++ destruct X1 as (B1 & T1 & U1). destruct X2 as (B2 & _). rewrite <- N3 in T1, U1. split; [congruence|]. auto.
             ++ intros Hi'. rewrite N3. apply K1. lia.
        * rewrite Y in X. exact X. }
  apply (G _ 0 d).
  - intros k ps Hk. destruct (line_words_spec d 0 k ps Hk) as (N & F & l & El & ->). split; [exact N|]. split; [exact F|].
    apply Forall_forall. intros p Hin. apply word_indices_spec in Hin as (m & t & -> & Hm & _). unfold tok_at. cbn [fst snd] in *. cbn [Nat.add] in *.
    rewrite El, Hm. discriminate.
  - intros q. destruct (tok_at d q) as [t|]; [|reflexivity]. exists t. unfold extended. repeat split; auto.
Qed.

(** With extension to the line, for proper tags ([plain]: no tag that is empty apart from
    its prefix): the text is as it was; the tag value of a tagged token is never changed;
    a token without tag gets the name of a target annotation, or the tag value of a token
    on the same line, or none. Given sub tags are kept. *)
Definition annotated (targets : list tann) (d : doc) (q : pos) (t t' : tok) : Prop :=
  (truthy (tag t) = true -> value (tag t') = value (tag t)) /\
  (truthy (tag t) = false -> truthy (tag t') = true ->
     (exists v, some_tag_for c (target_names targets) v /\ value (tag t') = value v) \/
     exists q2 t2, fst q2 = fst q /\ tok_at d q2 = Some t2 /\ truthy (tag t2) = true /\ value (tag t') = value (tag t2)) /\
  (truthy (sub t) = true -> sub t' = sub t).

Lemma some_tag_plain names v : Forall (fun n => plain (Some n)) names -> some_tag_for c names v -> plain v.
Proof.
  intros Hf (n & Hn & H). rewrite Forall_forall in Hf. pose proof (Hf n Hn) as P. unfold tag_for in H.
  destruct (cf_begin_prefix c); [|now subst v]. destruct H as [[-> ->]|[->| ->]]; [exact P| |].
  - destruct n; [destruct P as [P|P]; discriminate|]. right. reflexivity.
  - destruct n; [destruct P as [P|P]; discriminate|]. right. reflexivity.
Qed.
Theorem C12_annotate targets fuel d d' : plain_doc d -> Forall (fun n => plain (Some n)) (target_names targets) ->
  simple false fuel targets d = Ok d' ->
  forall q, match tok_at d q with
            | None => tok_at d' q = None
            | Some t => exists t', tok_at d' q = Some t' /\ same_text t t' /\ annotated targets d q t t'
            end.
Proof.
  intros Hp Hn. unfold simple_annotate. destruct (loop false fuel targets d) as [d1|] eqn:E; [|discriminate]. cbn [bind].
  intros [= <-] q. pose proof (loop_added _ _ _ _ _ E) as L.
  assert (A1 : forall t t', added c targets t t' -> annotated targets d q t t').
  { intros t t' [A B]. split; [|split].
    - intros T. destruct A as [->|[A _]]; [reflexivity|congruence].
    - intros T T'. destruct A as [A|[_ A]]; [congruence|]. left. eauto.
    - intros T. destruct B as [->|[B _]]; [reflexivity|congruence]. }
  cbn [negb]. rewrite andb_true_r. destruct (cf_extend c).
  2:{ specialize (L q). destruct (tok_at d q); [|exact L]. destruct L as (t' & E' & S' & A'). eauto. }
  assert (P1 : plain_doc d1).
  { intros p x Ex. specialize (L p). destruct (tok_at d p) as [t|] eqn:Et; [|congruence].
    destruct L as (t' & E' & _ & [A _]). rewrite E' in Ex. injection Ex as <-. destruct A as [->|[_ A]]; [exact (Hp p t Et)|].
    eapply some_tag_plain; eassumption. }
  pose proof (extend_lines_spec d1 P1 q) as X. pose proof (L q) as Y. destruct (tok_at d q) as [t|] eqn:Et.
  - destruct Y as (t1 & E1 & S1 & A). rewrite E1 in X. destruct X as (t2 & E2 & S2 & B2 & T2 & U2).
    exists t2. split; [exact E2|]. split; [eapply same_text_trans; eassumption|]. destruct (A1 t t1 A) as (K1 & K2 & K3).
    destruct A as [A B]. split; [|split].
    + intros T. destruct A as [A|[A _]]; [|congruence]. rewrite T2; [now rewrite A|now rewrite A].
    + intros T T'. destruct (truthy (tag t1)) eqn:T1.
      * rewrite (T2 eq_refl). apply (K2 T). reflexivity.
      * destruct (U2 eq_refl) as [U|(q2 & x2 & Q1 & Q2 & Q3 & Q4)]; [congruence|].
        specialize (L q2). destruct (tok_at d q2) as [x|] eqn:Ex; [|congruence]. destruct L as (x' & Ex' & _ & [Ax _]).
        rewrite Ex' in Q2. injection Q2 as <-. destruct Ax as [Ax|[_ Ax]]; [right|left; eauto].
        exists q2, x. rewrite <- Ax. auto.
    + intros T. rewrite B2. now apply K3.
  - rewrite Y in X. exact X.
Qed.

(** *** Termination *)
(** The number of rounds is at most the number of target annotations: more fuel gives the
    same result. *)
Lemma process_left ts d s so : process_targets sp wd lower escape_re re_search search_chunks search_all c so ts d = Ok s ->
  length (st_left s) <= length ts.
Proof.
  intros H. eapply (process_targets_Q sp wd lower escape_re re_search search_chunks search_all c so ts (fun _ _ => True)); auto.
  - apply incl_refl. - exact H.
Qed.
Theorem C12_rounds so targets fuel fuel' d : length targets <= fuel -> length targets <= fuel' ->
  simple so fuel targets d = simple so fuel' targets d.
Proof.
  intros H H'. unfold simple_annotate.
  assert (G : forall f f' ts d, length ts <= f -> length ts <= f' -> loop so f ts d = loop so f' ts d).
  { clear. induction f as [|f IH]; intros f' ts d H H'.
    - destruct ts; [destruct f'; reflexivity|cbn in H; lia].
    - destruct ts as [|a ts]; [destruct f'; reflexivity|]. destruct f' as [|f']; [cbn in H'; lia|]. cbn [annotate_loop].
      destruct (process_targets _ _ _ _ _ _ _ _ so (a :: ts) d) as [s|] eqn:E; [|reflexivity]. cbn [bind].
      pose proof (process_left _ _ _ _ E) as L.
      destruct (Nat.eqb_spec (length (st_left s)) (length (a :: ts))) as [e|e]; [reflexivity|]. cbn [length] in *. apply IH; lia. }
  now rewrite (G fuel fuel' targets d H H').
Qed.
(** and it does not run out of fuel unless the search does *)
Definition fine {A} (r : res A) : Prop := r <> Err OutOfFuel.
Hypothesis search_fine : forall h n k, fine (search_chunks h n k).
Hypothesis all_fine : forall h n, Forall fine (search_all h n).
Lemma fine_ok {A} (x : A) : fine (Ok x).
Proof. discriminate. Qed.
Lemma fine_bind {A B} (m : res A) (f : A -> res B) : fine m -> (forall x, m = Ok x -> fine (f x)) -> fine (bind m f).
Proof. intros H K. destruct m as [x|e]; cbn [bind]; [now apply K|]. unfold fine in *. congruence. Qed.
Lemma fine_foldM {A B} (f : B -> A -> res B) l : (forall b a, fine (f b a)) -> forall b, fine (foldM f b l).
Proof. intros H. induction l as [|a l IH]; intros b; cbn [foldM]; [apply fine_ok|]. apply fine_bind; auto. Qed.
Lemma matching_fine h n k : fine (matching_chunks sp wd lower search_chunks c h n k).
Proof.
  unfold matching_chunks. destruct (Nat.ltb _ _); [apply fine_ok|]. apply fine_bind; [apply search_fine|]. intros x _.
  destruct (found x); [apply fine_ok|apply search_fine].
Qed.
Lemma spelling_fine h n s k : fine (spelling_chunks sp wd lower search_chunks c h n s k).
Proof.
  unfold spelling_chunks. apply fine_bind; [apply matching_fine|]. intros x _. destruct (_ || _); [apply fine_ok|].
  generalize (match dict_get n s with Some l => l | None => [] end) as l. induction l as [|y l IH]; cbn [first_spelling]; [apply fine_ok|].
  apply fine_bind; [apply matching_fine|]. intros z _. destruct (found z); [apply fine_ok|exact IH].
Qed.
Lemma select_fine l : fine (select_index_ranges l).
Proof.
  destruct (Nat.le_gt_cases (length l) 1) as [H|H].
  - rewrite C15_select_few by exact H. apply fine_ok.
  - destruct (C15_select l H) as (a & b & _ & -> & _). apply fine_ok.
Qed.
Lemma merge_fine l : fine (merge_index_ranges l).
Proof. destruct l; cbn; [discriminate|apply fine_ok]. Qed.
Lemma ranges_fine text a : fine (matching_ranges sp wd lower search_chunks c text a).
Proof.
  unfold matching_ranges. destruct (an_value a) as [v|l].
  - apply fine_bind; [apply spelling_fine|]. intros; apply fine_ok.
  - apply fine_bind.
    + induction l as [|v l IH]; cbn [ranges_of_values]; [apply fine_ok|]. apply fine_bind.
      * unfold spelling_range. apply fine_bind; [apply spelling_fine|]. intros; apply fine_ok.
      * intros x _. apply fine_bind; [exact IH|]. intros; apply fine_ok.
    + intros [|r rs] _; [apply fine_ok|]. apply fine_bind; [apply select_fine|]. intros s _. apply fine_bind; [apply merge_fine|].
      intros; apply fine_ok.
Qed.
Lemma range_step_fine so text a d r : fine (range_step sp lower escape_re re_search search_all c so text a d r).
Proof.
  unfold range_step. destruct (cf_use_sub c); [|apply fine_ok]. unfold sub_annotations. destruct (an_subs a); [apply fine_ok|].
  apply fine_foldM. intros b nv. unfold sub_step. destruct (snd nv); [|discriminate].
  match goal with |- fine (first_free _ _ ?st _ (search_all ?h ?n) _) => generalize (all_fine h n); generalize (search_all h n); generalize st end.
  intros st l0 Hl. induction Hl as [|x l0 Hx Hl IH]; cbn [first_free]; [apply fine_ok|]. destruct x as [x|e].
  - destruct (existsb _ _); [exact IH|apply fine_ok].
  - unfold fine in *. congruence.
Qed.
Theorem C12_terminates so targets fuel d : length targets <= fuel -> simple so fuel targets d <> Err OutOfFuel.
Proof.
  intros H. change (fine (simple so fuel targets d)). unfold simple_annotate. apply fine_bind; [|intros; apply fine_ok].
  revert targets d H. induction fuel as [|f IH]; intros ts d H; (destruct ts as [|a ts]; [apply fine_ok|]); [cbn in H; lia|].
  cbn [annotate_loop]. apply fine_bind.
  - unfold process_targets. apply fine_foldM. intros s x. unfold process_one. apply fine_bind; [apply ranges_fine|].
    intros [|r rs] _.
    + destruct (ostreq _ _); [apply fine_ok|]. apply fine_bind; [apply ranges_fine|]. intros [|r rs] _; [apply fine_ok|].
      apply fine_bind; [apply merge_fine|]. intros m _. apply fine_bind; [apply fine_foldM; intros; apply range_step_fine|]. intros; apply fine_ok.
    + apply fine_bind; [apply fine_foldM; intros; apply range_step_fine|]. intros; apply fine_ok.
  - intros s E. pose proof (process_left _ _ _ _ E) as L. destruct (Nat.eqb_spec (length (st_left s)) (length (a :: ts))) as [e|e]; [apply fine_ok|].
    apply IH. cbn [length] in *. lia.
Qed.
End C12.

(* ---------------------------------------------------------------- *)
(** ** C52 *)
Section C52.
Variable sp wd : N -> bool.
Variable lower escape_re : str -> str.
Variable re_search : str -> str -> option Z.
Variable search_chunks : str -> str -> nat -> res (option (list irange)).
Variable search_all : str -> str -> list (res irange).
Variable c : config.
Notation sub_annotate := (sub_tag_annotate sp wd lower escape_re re_search search_chunks search_all c).

Lemma tok_at_map f (d : doc) q : tok_at (map (map f) d) q = option_map f (tok_at d q).
Proof.
  unfold tok_at, doc, line in *. rewrite nth_error_map. destruct (nth_error d (fst q)) as [l|]; [|reflexivity]. cbn [option_map]. apply nth_error_map.
Qed.
(** Exactly what happens: the main tag of every token is replaced by the remembered one;
    sub tags are only added. *)
Theorem C52_exact targets fuel d d' : sub_annotate fuel targets d = Ok d' ->
  doc_rel (fun t t' => tag t' = ptag t /\ ptag t' = ptag t /\
                       only_added (some_tag_for c (sub_names targets)) (sub t) (sub t')) d d'.
Proof.
  unfold sub_tag_annotate, simple_annotate.
  destruct (annotate_loop _ _ _ _ _ _ _ _ true fuel targets _) as [d1|] eqn:E; [|discriminate]. cbn [bind negb]. rewrite andb_false_r.
  intros [= <-] q. rewrite tok_at_map.
  assert (R : doc_rel (fun t t' => tag t' = tag t /\ ptag t' = ptag t) (map (map (clear_main c)) d) d1).
  { eapply (loop_Q sp wd lower escape_re re_search search_chunks search_all c true targets); [| | | | |exact E]; [| | | |apply incl_refl].
    - intros x. apply doc_rel_refl. auto.
    - intros x y z. apply doc_rel_trans. intros ? ? ? [? ?] [? ?]. split; congruence.
    - discriminate.
    - intros d0 x p name b _ H _ _ r. specialize (H r). destruct (tok_at d0 r) as [t|]; [|now apply tok_at_set_none].
      destruct H as (t1 & E1 & S1 & A1 & A2). destruct (set_any sp LSub p (full_tag c name b) x r t1 E1) as (t2 & E2 & S2 & G & P).
      exists t2. split; [exact E2|]. split; [eapply same_text_trans; eassumption|]. pose proof (G LMain) as G1. cbn in G1.
      rewrite P by reflexivity. split; congruence. }
  pose proof (loop_added sp wd lower escape_re re_search search_chunks search_all c targets true fuel _ _ E) as A.
  specialize (R q). specialize (A q). rewrite tok_at_map in R, A. destruct (tok_at d q) as [t|]; cbn [option_map] in *.
  - destruct R as (t1 & E1 & S1 & R1 & R2). destruct A as (t1' & E1' & _ & [_ A]). rewrite E1 in *. injection E1' as <-.
    cbn [option_map]. eexists. split; [reflexivity|].
    assert (Cm : same_text t (clear_main c t) /\ tag (clear_main c t) = None /\ ptag (clear_main c t) = ptag t /\ sub (clear_main c t) = sub t).
    { unfold clear_main. destruct (cf_preserve_sub c); repeat split. }
    destruct Cm as (C1 & C2 & C3 & C4). unfold restore_main.
    split; [eapply same_text_trans; [exact C1|]; eapply same_text_trans; [exact S1|apply set_tag_only_text]|].
    cbn [set_tag_only tag ptag sub]. unfold tag_or_preserved. cbn [get_tag get_preserved_tag]. rewrite R1, C2, R2, C3. rewrite C4 in A.
    repeat split; auto.
  - rewrite R. reflexivity.
Qed.
(** The main tag shown stays for a token without given tag and where it is the remembered
    one. *)
Theorem C52_shown_partial targets fuel d d' : sub_annotate fuel targets d = Ok d' ->
  doc_rel (fun t t' => truthy (tag t) = false \/ tag t = ptag t -> shown LMain t' = shown LMain t) d d'.
Proof.
  intros H. eapply doc_rel_impl; [|eapply C52_exact; exact H]. cbn beta. intros t t' (A1 & A2 & _) K.
  rewrite <- !shown_or. unfold tag_or_preserved. cbn [get_tag get_preserved_tag]. rewrite A1, A2. unfold oor.
  destruct K as [->|<-]; [destruct (truthy (ptag t)); reflexivity|reflexivity].
Qed.
End C52.

(* ---------------------------------------------------------------- *)
(** ** Examples: exact search *)
Definition lower_ascii (s : str) : str := map (fun x => if ascii_upper x then (x + 32)%N else x) s.
Fixpoint find_from (i : Z) (h n : str) : option Z :=
  if starts_with n h then Some i else match h with [] => None | _ :: h' => find_from (i + 1)%Z h' n end.
Definition exact_chunks (h n : str) (k : nat) : res (option (list irange)) :=
  Ok (match find_from 0 h n with Some i => Some [(i, i + zlen n)%Z] | None => None end).
Definition exact_all (h n : str) : list (res irange) :=
  match find_from 0 h n with Some i => [Ok (i, i + zlen n)%Z] | None => [] end.
Definition no_regex (p s : str) : option Z := None.
Definition word (s : string) (t : ostr) : tok := mkTok (u s) t None None None (Some (u " ")).
Definition ex_doc : doc :=
  [[word "The" None; word "Title" None; word "x" None]; [word "By" (Some (u "b-author")); word "Jo" (Some (u "i-author")); word "Doe" None]].
Definition ex_config : config := mkConfig 200 2 5 true true true false [].
Definition ex_targets : list tann :=
  [mkTann (u "abstract") (VOne (u "missing")) []; mkTann (u "title") (VOne (u "the title")) [(u "word", VOne (u "Title"))];
   mkTann (u "author") (VOne (u "Doe")) []].
Definition ex_run := simple_annotate ascii_space ascii_word lower_ascii (fun s => s) no_regex exact_chunks exact_all ex_config false 3 ex_targets ex_doc.
(** the title is tagged and extended over the line, the tag of the author stays *)
Example C12_ex : exists d', ex_run = Ok d' /\
  map (map tag) d' = [[Some (u "b-title"); Some (u "i-title"); Some (u "i-title")]; [Some (u "b-author"); Some (u "i-author"); Some (u "i-author")]] /\
  map (map sub) d' = [[None; Some (u "b-word"); None]; [None; None; None]].
Proof. eexists. split; [vm_compute; reflexivity|]. split; vm_compute; reflexivity. Qed.
Example C12_ex_plain : plain_doc ex_doc /\ Forall (fun n => plain (Some n)) (target_names ex_targets) /\ length ex_targets <= 3.
Proof.
  split; [|split; [|cbn; lia]].
  - intros [[|[|i]] [|[|[|j]]]] t H; cbn in H; try discriminate; try (injection H as <-; cbn; first [now left|right; reflexivity]);
      try (destruct i; discriminate); destruct j; discriminate.
  - repeat apply Forall_cons; try apply Forall_nil; right; reflexivity.
Qed.
Example C12_ex_fine : (forall h n k, fine (exact_chunks h n k)) /\ (forall h n, Forall fine (exact_all h n)).
Proof.
  split; [discriminate|]. intros h n. unfold exact_all. destruct (find_from 0 h n); repeat constructor. discriminate.
Qed.
(** Without extension to the line the same document. *)
Definition ex_config_no_extend : config := mkConfig 200 2 5 true false true false [].
Example C12_ex_no_extend : exists d',
  simple_annotate ascii_space ascii_word lower_ascii (fun s => s) no_regex exact_chunks exact_all ex_config_no_extend false 3 ex_targets ex_doc = Ok d' /\
  map (map tag) d' = [[Some (u "b-title"); Some (u "i-title"); None]; [Some (u "b-author"); Some (u "i-author"); Some (u "b-author")]].
Proof. eexists. split; [vm_compute; reflexivity|]. vm_compute; reflexivity. Qed.

(** The claim of C52 is false: a tag given before (by another annotator) is lost. *)
Theorem C52_refuted : exists d d' t t', sub_tag_annotate ascii_space ascii_word lower_ascii (fun s => s) no_regex exact_chunks exact_all
    ex_config 3 ex_targets d = Ok d' /\
  tok_at d (1, 0) = Some t /\ tok_at d' (1, 0) = Some t' /\ shown LMain t = Some (u "b-author") /\ shown LMain t' = None.
Proof.
  exists ex_doc. eexists. eexists. eexists. split; [vm_compute; reflexivity|]. repeat split.
Qed.
(** where tags are those loaded it works: sub tags are added, main tags stay *)
Definition loaded (s : string) (t : ostr) : tok := mkTok (u s) None None t None (Some (u " ")).
Example C52_ex : exists d', sub_tag_annotate ascii_space ascii_word lower_ascii (fun s => s) no_regex exact_chunks exact_all ex_config 3 ex_targets
    [[loaded "The" (Some (u "b-title")); loaded "Title" (Some (u "i-title"))]] = Ok d' /\
  map (map (shown LMain)) d' = [[Some (u "b-title"); Some (u "i-title")]] /\ map (map sub) d' = [[None; Some (u "b-word")]].
Proof. eexists. split; [vm_compute; reflexivity|]. split; vm_compute; reflexivity. Qed.

Print Assumptions C12_no_overwrite.
Print Assumptions C12_annotate.
Print Assumptions C12_rounds.
Print Assumptions C12_terminates.
Print Assumptions C52_exact.
Print Assumptions C52_shown_partial.
Print Assumptions C52_refuted.
