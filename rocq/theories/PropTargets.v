(** C88: the target annotations of a document. *)
From Coq Require Import Permutation Sorted.
From Verif Require Import Base ModelFuzzyMatch ModelClusters PropClusters ModelJoined ModelWordMatch ModelTarget PropTarget ModelMapping PropMapping ModelTagConfigs ModelSimpleMatch ModelMatch ModelTargets.
Open Scope list_scope.
Open Scope nat_scope.

(* ---------------------------------------------------------------- *)
(** ** Specification *)
(** document order: an element comes before what is in it and before its following siblings
    (and what is in those) *)
Definition comes_before (p q : npath) : Prop :=
  (exists r, r <> [] /\ q = p ++ r) \/ (exists c i j a b, p = c ++ i :: a /\ q = c ++ j :: b /\ i < j).
Definition option_of (m : options) (k : str) (suffix : string) : ostr := dict_get (k ++ u suffix) m.
(** no option that changes the text of a field *)
Definition plain_options (m : options) (k : str) : Prop :=
  forall s, In s [".ignore"; ".children"; ".regex"; ".extract-regex"]%string -> option_of m k s = None.

(* ---------------------------------------------------------------- *)
(** ** Paths and document order *)
Lemma peq_spec a : forall b, peq a b = true <-> a = b.
Proof.
  induction a as [|x a IH]; intros [|y b]; cbn [peq]; try (split; (easy || discriminate)).
  rewrite andb_true_iff, Nat.eqb_eq, IH. split; [intros [-> ->]; reflexivity|intros [= -> ->]; now split].
Qed.
Lemma pmem_spec p l : pmem p l = true <-> In p l.
Proof.
  unfold pmem. rewrite existsb_exists. split; [intros (x & H & E); apply peq_spec in E; now subst|intros H; exists p; split; [exact H|now apply peq_spec]].
Qed.
Lemma pmem_false p l : pmem p l = false <-> ~ In p l.
Proof. rewrite <- pmem_spec. destruct (pmem p l); split; congruence. Qed.
Fixpoint paths_list (pre : npath) (i : nat) (l : list node) : list npath :=
  match l with [] => [] | c :: l' => paths_from (pre ++ [i]) c ++ paths_list pre (S i) l' end.
Lemma paths_from_eq pre n : paths_from pre n = pre :: paths_list pre 0 (nchildren n).
Proof.
  destruct n as [t cs tl|t tl]; [|reflexivity]. cbn [paths_from nchildren]. f_equal. generalize 0. induction cs as [|c cs IH]; intros i; [reflexivity|].
  cbn [paths_list]. f_equal. apply IH.
Qed.
Lemma node_size_ind (P : node -> Prop) : (forall n, (forall c, In c (nchildren n) -> P c) -> P n) -> forall n, P n.
Proof.
  intros H. fix IH 1. intros [t cs tl|t tl]; apply H; cbn [nchildren]; [|intros c []].
  induction cs as [|c cs IHcs]; intros d; [intros []|]. intros [<-|Hd]; [apply IH|now apply IHcs].
Qed.
Lemma paths_in n : forall pre q, In q (paths_from pre n) <-> exists r, q = pre ++ r /\ node_at n r <> None.
Proof.
  induction n as [n IH] using node_size_ind. intros pre q. rewrite paths_from_eq. cbn [In].
  assert (G : forall l i, (forall c, In c l -> In c (nchildren n)) ->
    (In q (paths_list pre i l) <-> exists j r c, nth_error l j = Some c /\ q = pre ++ (i + j) :: r /\ node_at c r <> None)).
  { induction l as [|c l IHl]; intros i Hl; cbn [paths_list].
    - split; [intros []|intros (j & r & c & H & _); destruct j; discriminate].
    - rewrite in_app_iff, (IH c (Hl c (or_introl eq_refl))), (IHl (S i)) by (intros; apply Hl; now right). split.
      + intros [(r & -> & Hr)|(j & r & c' & Hj & -> & Hr)].
        * exists 0, r, c. split; [reflexivity|]. split; [|exact Hr]. rewrite Nat.add_0_r, <- app_assoc. reflexivity.
        * exists (S j), r, c'. split; [exact Hj|]. split; [|exact Hr]. now rewrite Nat.add_succ_r.
      + intros ([|j] & r & c' & Hj & -> & Hr).
        * left. injection Hj as <-. exists r. split; [|exact Hr]. rewrite Nat.add_0_r, <- app_assoc. reflexivity.
        * right. exists j, r, c'. split; [exact Hj|]. split; [|exact Hr]. now rewrite Nat.add_succ_r. }
  rewrite (G (nchildren n) 0) by auto. split.
  - intros [<-|(j & r & c & Hj & -> & Hr)]; [exists []; now rewrite app_nil_r|]. exists (j :: r). split; [reflexivity|]. cbn [node_at]. now rewrite Hj.
  - intros ([|j r] & -> & Hr); [left; now rewrite app_nil_r|]. right. cbn [node_at] in Hr. destruct (nth_error (nchildren n) j) as [c|] eqn:Hj; [|easy].
    now exists j, r, c.
Qed.
Lemma before_app c p q : comes_before p q -> comes_before (c ++ p) (c ++ q).
Proof.
  intros [(r & H & ->)|(d & i & j & a & b & -> & -> & H)]; [left; exists r; now rewrite app_assoc|].
  right. exists (c ++ d), i, j, a, b. now rewrite !app_assoc.
Qed.
Lemma sorted_app {A} (R : A -> A -> Prop) a : forall b, StronglySorted R a -> StronglySorted R b -> (forall x y, In x a -> In y b -> R x y) -> StronglySorted R (a ++ b).
Proof.
  induction a as [|x a IH]; intros b Ha Hb H; [exact Hb|]. cbn [app]. inversion Ha; subst. constructor.
  - apply IH; auto. intros; apply H; [now right|assumption].
  - apply Forall_app. split; [assumption|]. apply Forall_forall. intros y Hy. apply H; [now left|exact Hy].
Qed.
Lemma paths_sorted n : forall pre, StronglySorted comes_before (paths_from pre n).
Proof.
  induction n as [n IH] using node_size_ind. intros pre. rewrite paths_from_eq. constructor.
  - generalize 0. assert (Hl : forall c, In c (nchildren n) -> In c (nchildren n)) by auto. revert Hl. generalize (nchildren n) at 1 3. intros l.
    induction l as [|c l IHl]; intros Hl i; cbn [paths_list]; [constructor|]. apply sorted_app.
    + apply IH. apply Hl. now left.
    + apply IHl. intros; apply Hl; now right.
    + intros x y Hx Hy. apply paths_in in Hx as (r & -> & _).
      assert (G : forall l i y, In y (paths_list pre i l) -> exists j r, i <= j /\ y = pre ++ j :: r).
      { clear. induction l as [|c l IHl]; intros i y; cbn [paths_list]; [intros []|]. rewrite in_app_iff. intros [H|H].
        - apply paths_in in H as (r & -> & _). exists i, r. rewrite <- app_assoc. now split.
        - destruct (IHl _ _ H) as (j & r & Hj & ->). exists j, r. split; [lia|reflexivity]. }
      destruct (G _ _ _ Hy) as (j & r' & Hj & ->). right. exists pre, i, j, r, r'. rewrite <- app_assoc. repeat split. lia.
  - apply Forall_forall. intros y Hy.
    assert (G : forall l i, In y (paths_list pre i l) -> exists r, r <> [] /\ y = pre ++ r).
    { clear Hy. induction l as [|c l IHl]; intros i; cbn [paths_list]; [intros []|]. rewrite in_app_iff. intros [H|H]; [|eauto].
      apply paths_in in H as (r & -> & _). exists (i :: r). rewrite <- app_assoc. now split. }
    left. eauto.
Qed.
Lemma app_cancel_head {A} (c : list A) : forall d x y, c ++ x = d ++ y -> (exists e, d = c ++ e /\ x = e ++ y) \/ (exists e, c = d ++ e /\ y = e ++ x).
Proof.
  induction c as [|a c IH]; intros d x y H; [left; exists d; now split|]. destruct d as [|b d]; [right; exists (a :: c); now split|].
  injection H as -> H. destruct (IH _ _ _ H) as [(e & -> & ->)|(e & -> & ->)]; [left|right]; exists e; now split.
Qed.
Lemma before_lex p : forall q, comes_before p q <-> (match p, q with [], _ :: _ => True | i :: p', j :: q' => i < j \/ (i = j /\ comes_before p' q') | _, [] => False end).
Proof.
  intros q. destruct p as [|i p], q as [|j q].
  - split; [|easy]. intros [(r & H & E)|(c & i & j & a & b & E & _)]; [cbn in E; congruence|now destruct c].
  - split; [easy|]. intros _. left. now exists (j :: q).
  - split; [|easy]. intros [(r & H & E)|(c & x & y & a & b & _ & E & _)]; [discriminate|now destruct c].
  - split.
    + intros [(r & H & E)|(c & x & y & a & b & E & E' & H)].
      * injection E as -> ->. right. split; [reflexivity|]. left. now exists r.
      * destruct c as [|z c]; cbn [app] in E, E'.
        -- injection E as -> ->. injection E' as -> ->. now left.
        -- injection E as -> ->. injection E' as -> ->. right. split; [reflexivity|]. right. now exists c, x, y, a, b.
    + intros [H|[-> H]]; [right; now exists [], i, j, p, q|]. apply (before_app [j]) in H. exact H.
Qed.
Lemma before_irrefl p : ~ comes_before p p.
Proof. induction p as [|i p IH]; rewrite before_lex; [easy|]. intros [H|[_ H]]; [lia|auto]. Qed.
Lemma before_asym p : forall q, comes_before p q -> ~ comes_before q p.
Proof.
  induction p as [|i p IH]; intros [|j q] H; rewrite before_lex in H |- *; try easy. intros G. destruct H as [H|[-> H]], G as [G|[E G]]; try lia. now apply (IH q).
Qed.
Lemma index_sorted l : StronglySorted comes_before l -> forall p q, In p l -> In q l -> (index_of p l < index_of q l <-> comes_before p q).
Proof.
  induction 1 as [|x l H IH Hx]; intros p q Hp Hq; [easy|]. rewrite Forall_forall in Hx. cbn [index_of].
  destruct (peq p x) eqn:E1, (peq q x) eqn:E2; try (apply peq_spec in E1; subst x); try (apply peq_spec in E2; try subst x).
  - subst. split; [lia|]. intros G. now apply before_irrefl in G.
  - destruct Hq as [<-|Hq]; [rewrite (proj2 (peq_spec p p) eq_refl) in E2; discriminate|]. split; [intros _; now apply Hx|lia].
  - destruct Hp as [<-|Hp]; [rewrite (proj2 (peq_spec q q) eq_refl) in E1; discriminate|]. split; [lia|]. intros G. now apply before_asym in G; destruct G; apply Hx.
  - destruct Hp as [<-|Hp]; [rewrite (proj2 (peq_spec x x) eq_refl) in E1; discriminate|].
    destruct Hq as [<-|Hq]; [rewrite (proj2 (peq_spec x x) eq_refl) in E2; discriminate|]. rewrite <- IH by assumption. lia.
Qed.
(** The positions of the elements are those of document order. *)
Theorem C88_positions : forall root p q, node_at root p <> None -> node_at root q <> None ->
  (index_of p (paths_from [] root) < index_of q (paths_from [] root) <-> comes_before p q).
Proof.
  intros root p q Hp Hq. apply index_sorted; [apply paths_sorted| |]; apply paths_in; eexists; (split; [reflexivity|assumption]).
Qed.
Theorem C88_positions_differ : forall root p q, node_at root p <> None -> node_at root q <> None ->
  index_of p (paths_from [] root) = index_of q (paths_from [] root) -> p = q.
Proof.
  intros root p q Hp Hq H. destruct (peq p q) eqn:E; [now apply peq_spec|]. exfalso.
  assert (G : comes_before p q \/ comes_before q p).
  { clear - E. revert q E. induction p as [|i p IH]; intros [|j q] E; cbn [peq] in E; try discriminate; [left; now apply before_lex|right; now apply before_lex|]. rewrite (before_lex (i :: p)), (before_lex (j :: q)).
    destruct (Nat.eqb_spec i j) as [->|n]; [|assert (i < j \/ j < i) by lia; tauto]. cbn [andb] in E. destruct (IH _ E); tauto. }
  destruct G as [G|G]; apply (C88_positions root) in G; try assumption; lia.
Qed.

(* ---------------------------------------------------------------- *)
(** ** Helpers *)
Lemma mapM_F2 {A B} (f : A -> res B) l : forall r, mapM f l = Ok r <-> Forall2 (fun x y => f x = Ok y) l r.
Proof.
  induction l as [|x l IH]; intros r; cbn [mapM].
  - split; [intros [= <-]; constructor|]. intros H. now inversion H.
  - split.
    + destruct (f x) as [y|] eqn:E; [|discriminate]. cbn [bind]. destruct (mapM f l) as [r'|]; [|discriminate]. cbn [bind]. intros [= <-].
      constructor; [exact E|]. now apply IH.
    + intros H. inversion H as [|? y ? r' E H']; subst. rewrite E. cbn [bind]. apply IH in H'. rewrite H'. reflexivity.
Qed.
Lemma F2_in_r {A B} (R : A -> B -> Prop) l r : Forall2 R l r -> forall y, In y r -> exists x, In x l /\ R x y.
Proof. induction 1 as [|x y l r H _ IH]; intros z; [intros []|]. intros [<-|Hz]; [exists x; split; [now left|exact H]|]. destruct (IH z Hz) as (w & ? & ?). exists w. split; [now right|assumption]. Qed.
Lemma F2_in_l {A B} (R : A -> B -> Prop) l r : Forall2 R l r -> forall x, In x l -> exists y, In y r /\ R x y.
Proof. induction 1 as [|x y l r H _ IH]; intros z; [intros []|]. intros [<-|Hz]; [exists y; split; [now left|exact H]|]. destruct (IH z Hz) as (w & ? & ?). exists w. split; [now right|assumption]. Qed.
Lemma sort_map {A B} (g : A -> B) (la : A -> A -> bool) (lb : B -> B -> bool) : (forall a b, lb (g a) (g b) = la a b) ->
  forall l, map g (sort la l) = sort lb (map g l).
Proof.
  intros H. induction l as [|x l IH]; [reflexivity|]. cbn [sort fold_right map]. fold (sort la l). fold (sort lb (map g l)). rewrite <- IH. generalize (sort la l). clear IH l.
  induction l as [|y l IH]; [reflexivity|]. cbn [insert map]. rewrite H. destruct (la x y); [reflexivity|]. cbn [map]. now rewrite IH.
Qed.
Lemma nonempty_spec {A} (l : list A) : nonempty l = true <-> l <> [].
Proof. destruct l; split; try easy; congruence. Qed.
Lemma truthy_in l s : In s (truthy_only l) <-> In s l /\ s <> [].
Proof. unfold truthy_only. rewrite filter_In, nonempty_spec. tauto. Qed.

Section Targets.
Variables sp wd dg : N -> bool.
Variable lower : str -> str.
Variable compiles : str -> bool.
Variable parse_int : str -> option Z.
Variable show_int : Z -> str.
Variable json_concat : str -> res (list (list source)).
Variable json_range : str -> res (list range_item).
Variable re_group : str -> str -> option ostr.
Variable re_spans : str -> str -> list (Z * Z).
Variable xpath : npath -> str -> res (list npath).
Variable content_excluding : list npath -> npath -> str.
Variable root : node.
Let conf := field_conf sp lower compiles parse_int json_concat json_range.
Let ents := tgt_entries sp wd dg compiles parse_int show_int re_group re_spans xpath content_excluding root.
Let fents := field_entries sp wd dg lower compiles parse_int show_int json_concat json_range re_group re_spans xpath content_excluding root.
Let T := xml_targets sp wd dg lower compiles parse_int show_int json_concat json_range re_group re_spans xpath content_excluding root.
Let pos (e : npath) : Z := Z.of_nat (index_of e (paths_from [] root)).

Lemma targets_inv xm tag l : T xm tag = Ok l -> exists m ls, dict_get tag xm = Some m /\ Forall2 (fun k es => fents m k = Ok es) (field_names m) ls /\
  l = map snd (sort (fun a b => key_leb (fst a) (fst b)) (concat ls)).
Proof.
  unfold T, xml_targets. destruct (dict_get tag xm) as [m|]; [|discriminate]. fold fents. destruct (mapM (fents m) (field_names m)) as [ls|] eqn:E; [|discriminate].
  cbn [bind]. intros [= <-]. exists m, ls. apply mapM_F2 in E. now repeat split.
Qed.
(** the elements found by the expressions of a field *)
Definition found_by (xs : list str) (e : npath) (es : list npath) : Prop :=
  exists ls, Forall2 (fun x ns => xpath e x = Ok ns) xs ls /\ es = concat ls.
Lemma all_xpaths_spec e xs es : all_xpaths xpath e xs = Ok es <-> found_by xs e es.
Proof.
  unfold all_xpaths, found_by. split.
  - destruct (mapM (xpath e) xs) as [ls|] eqn:E; [|discriminate]. cbn [bind]. intros [= <-]. exists ls. apply mapM_F2 in E. now split.
  - intros (ls & H & ->). apply mapM_F2 in H. now rewrite H.
Qed.
Lemma fents_inv m k l : fents m k = Ok l -> exists f es ls, conf m k = Ok f /\ found_by (fc_xpaths f) [] es /\ Forall2 (fun e x => ents k f e = Ok x) es ls /\ l = concat ls.
Proof.
  unfold fents, field_entries. fold conf. fold ents. destruct (conf m k) as [f|] eqn:E; [|discriminate]. cbn [bind].
  destruct (all_xpaths xpath [] (fc_xpaths f)) as [es|] eqn:E1; [|discriminate]. cbn [bind]. destruct (mapM (ents k f) es) as [ls|] eqn:E2; [|discriminate]. cbn [bind].
  intros [= <-]. exists f, es, ls. apply mapM_F2 in E2. apply all_xpaths_spec in E1. now repeat split.
Qed.
Lemma targets_in xm tag l t : T xm tag = Ok l -> In t l -> exists m k f es e x kk,
  dict_get tag xm = Some m /\ In k (field_names m) /\ conf m k = Ok f /\ found_by (fc_xpaths f) [] es /\ In e es /\ ents k f e = Ok x /\ In (kk, t) x.
Proof.
  intros H Hin. apply targets_inv in H as (m & ls & Hm & HF & ->). apply in_map_iff in Hin as ([kk t'] & <- & Hin).
  apply (Permutation_in _ (sort_perm _ _)) in Hin. apply in_concat in Hin as (x & Hx & Hin). destruct (F2_in_r _ _ _ HF x Hx) as (k & Hk & E).
  apply fents_inv in E as (f & es & ls' & Hf & He & HF' & ->). apply in_concat in Hin as (y & Hy & Hin). destruct (F2_in_r _ _ _ HF' y Hy) as (e & Hein & E').
  exists m, k, f, es, e, y, kk. now repeat split.
Qed.
Lemma conf_fields m k f : conf m k = Ok f ->
  fc_xpaths f = parse_xpaths sp (dict_get k m) /\ fc_ignore f = parse_xpaths sp (option_of m k ".ignore") /\ fc_children f = parse_xpaths sp (option_of m k ".children") /\
  fc_regex f = (if truthy (option_of m k ".regex") then option_of m k ".regex" else None) /\
  fc_extract f = (if truthy (option_of m k ".extract-regex") then option_of m k ".extract-regex" else None) /\
  match option_of m k ".priority" with Some s => parse_int s = Some (fc_priority f) | None => fc_priority f = 0%Z end /\
  (fc_multiple f = true <-> option_of m k ".match-multiple" = Some (u "true")) /\
  (fc_bonding f = true <-> option_of m k ".bonding" = Some (u "true")) /\
  (fc_next f = true <-> option_of m k ".require-next" = Some (u "true")) /\
  (fc_unmatched f = true <-> option_of m k ".unmatched-parent-text" = Some (u "true")) /\
  fc_subs f = map (fun kv => (fst kv, snd kv, option_of m (k ++ u ".sub." ++ fst kv) ".extract-regex")) (sub_mapping m k).
Proof.
  unfold conf, field_conf. change (opt m k) with (option_of m k). intros H.
  destruct (or_default json_concat _) as [cc|]; [|discriminate]. cbn [bind] in H.
  destruct (or_default json_range _) as [rr|]; [|discriminate]. cbn [bind] in H.
  assert (C : forall o r, compiled compiles o = Ok r -> r = if truthy o then o else None).
  { intros [[|c s]|] r; cbn; [congruence| |congruence]. destruct (compiles _); congruence. }
  destruct (compiled compiles (option_of m k ".regex")) as [re|] eqn:E1; [|discriminate]. apply C in E1. cbn [bind] in H.
  destruct (compiled compiles (option_of m k ".extract-regex")) as [ex|] eqn:E2; [|discriminate]. apply C in E2. cbn [bind] in H.
  assert (P : exists p, match option_of m k ".priority" with Some s => to_int parse_int s | None => Ok 0%Z end = Ok p /\
                   match option_of m k ".priority" with Some s => parse_int s = Some p | None => p = 0%Z end).
  { destruct (option_of m k ".priority") as [s|]; [|now exists 0%Z]. unfold to_int in *. destruct (parse_int s) as [p|]; [now exists p|discriminate H]. }
  destruct P as (p & P1 & P2). rewrite P1 in H. cbn [bind] in H.
  match type of H with bind ?x _ = _ => destruct x as [rw|]; [|discriminate] end. cbn [bind] in H. injection H as <-.
  cbn [fc_xpaths fc_ignore fc_children fc_regex fc_extract fc_priority fc_multiple fc_bonding fc_next fc_unmatched fc_subs].
  assert (F : forall s, flag m k s = true <-> option_of m k s = Some (u "true")).
  { intros s. unfold flag. change (opt m k s) with (option_of m k s). apply ostreq_true. }
  repeat (split; [first [reflexivity|exact E1|exact E2|exact P2|apply F]|]). reflexivity.
Qed.
Lemma field_names_spec m k : In k (field_names m) <-> In k (map fst m) /\ plain_name k.
Proof. unfold field_names. rewrite filter_In, negb_true_iff, has_false. reflexivity. Qed.

(** ** Sub annotations *)
Lemma stripped_ok s : stripped sp s = Ok (norm (strip sp s)).
Proof.
  unfold stripped, stripped_text. apply C35_normal. destruct (strip_spec sp s) as (w & w' & E & _). apply (f_equal (@length N)) in E. rewrite !app_length in E. lia.
Qed.
Lemma strip_id s : no_outer_space sp s -> strip sp s = s.
Proof.
  intros H. unfold strip. assert (G : forall t, (forall c t', t = c :: t' -> sp c = false) -> lstrip sp t = t).
  { intros [|c t] Ht; [reflexivity|]. cbn [lstrip]. now rewrite (Ht c t eq_refl). }
  rewrite (G s) by (intros c t' E; apply (H c t'); now left). rewrite G; [apply rev_involutive|].
  intros c t' E. apply (H c (rev t')). right. apply (f_equal (@rev N)) in E. rewrite rev_involutive in E. exact E.
Qed.
Section Spaces.
Hypothesis sp_ws4 : forall c, ws4 c = true -> sp c = true.
Lemma stripped_clean s : no_outer_space sp (norm (strip sp s)).
Proof using sp_ws4.
  destruct (C35_stripped sp sp_ws4 (S (2 * length s)) s (le_n _)) as (r & E & H & _). fold (stripped sp s) in E. rewrite stripped_ok in E. now injection E as <-.
Qed.
(** the text of an element with normalised white space *)
Definition clean_text (p : npath) : str := norm (strip sp (content root p)).
Lemma sub_value_spec regex s : sub_value sp re_spans regex s = Ok
  (match norm (strip sp s) with
   | [] => None
   | t => match regex with
          | Some ((_ :: _) as p) => match extract_using_regex sp t (re_spans p t) with One [] => None | One s => Some (VOne s) | Many [] => None | Many l => Some (VMany l) end
          | _ => Some (VOne t)
          end
   end).
Proof using sp_ws4.
  unfold sub_value. rewrite stripped_ok. cbn [bind]. pose proof (stripped_clean s) as C. assert (I : norm (norm (strip sp s)) = norm (strip sp s)).
  { apply (C35_shape (S (2 * length (strip sp s))) (strip sp s)); [lia|]. apply C35_normal. lia. }
  destruct (norm (strip sp s)) as [|c t] eqn:E; [reflexivity|]. rewrite <- E in *. rewrite C35_normal by lia. cbn [bind]. rewrite I, strip_id by exact C.
  rewrite E. destruct regex as [[|d r]|]; reflexivity.
Qed.
Lemma foldM_collect {A B C} (g : A -> res (option B)) (h : B -> C) l : forall acc r,
  foldM (fun acc x => do v <- g x ;; Ok (match v with Some v => acc ++ [h v] | None => acc end)) acc l = Ok r ->
  exists vs, Forall2 (fun x v => g x = Ok v) l vs /\ r = acc ++ flat_map (fun v => match v with Some v => [h v] | None => [] end) vs.
Proof using.
  induction l as [|x l IH]; intros acc r H; cbn [foldM] in H.
  - injection H as <-. exists []. split; [constructor|]. now rewrite app_nil_r.
  - destruct (g x) as [v|] eqn:E; [|discriminate]. cbn [bind] in H. apply IH in H as (vs & HF & ->). exists (v :: vs). split; [now constructor|].
    cbn [flat_map]. destruct v; [now rewrite <- app_assoc|reflexivity].
Qed.
(** what a sub annotation makes of a text *)
Definition sub_values (regex : ostr) (t : str) : list tvalue :=
  match t with
  | [] => []
  | _ => match regex with
         | Some ((_ :: _) as p) => match extract_using_regex sp t (re_spans p t) with One [] => [] | One s => [VOne s] | Many [] => [] | Many l => [VMany l] end
         | _ => [VOne t]
         end
  end.
Lemma subs_spec e subs r : sub_annotations_of sp compiles re_spans xpath root e subs = Ok r ->
  exists founds, Forall2 (fun s ns => xpath e (snd (fst s)) = Ok ns) subs founds /\
    r = concat (map (fun x => flat_map (fun p => map (fun v => (fst (fst (fst x)), v)) (sub_values (snd (fst x)) (clean_text p))) (snd x)) (combine subs founds)).
Proof using sp_ws4.
  unfold sub_annotations_of.
  enough (G : forall acc, foldM (fun acc (s : str * str * ostr) => let '(name, x, regex) := s in
     do regex <- compiled compiles regex ;; do found <- xpath e x ;;
     foldM (fun acc p => do v <- sub_value sp re_spans regex (content root p) ;; Ok (match v with Some v => acc ++ [(name, v)] | None => acc end)) acc found) acc subs = Ok r ->
   exists founds, Forall2 (fun s ns => xpath e (snd (fst s)) = Ok ns) subs founds /\
    r = acc ++ concat (map (fun x => flat_map (fun p => map (fun v => (fst (fst (fst x)), v)) (sub_values (snd (fst x)) (clean_text p))) (snd x)) (combine subs founds)))
    by (intros H; exact (G [] H)).
  induction subs as [|[[n x] regex] subs IH]; intros acc H; cbn [foldM] in H.
  - injection H as <-. exists []. split; [constructor|]. cbn. now rewrite app_nil_r.
  - destruct (compiled compiles regex) as [re|] eqn:E; [|discriminate]. cbn [bind] in H. destruct (xpath e x) as [found|] eqn:E1; [|discriminate]. cbn [bind] in H.
    match type of H with bind ?y _ = _ => destruct y as [acc'|] eqn:E2; [|discriminate] end. cbn [bind] in H.
    apply IH in H as (founds & HF & ->). exists (found :: founds). split; [now constructor|]. cbn [combine map concat fst snd].
    rewrite app_assoc. f_equal. apply (foldM_collect (fun p => sub_value sp re_spans re (content root p)) (fun v => (n, v))) in E2 as (vs & HF2 & ->). f_equal.
    clear - HF2 E sp_ws4. induction HF2 as [|p v found vs Hv _ IH]; [reflexivity|]. cbn [flat_map]. rewrite IH. f_equal. rewrite sub_value_spec in Hv. injection Hv as <-.
    fold (clean_text p). unfold sub_values. destruct (clean_text p) as [|c t]; [reflexivity|]. destruct regex as [[|d rg]|]; cbn in E.
    + injection E as <-. reflexivity.
    + destruct (compiles _); [|discriminate]. injection E as <-. destruct (extract_using_regex _ _ _) as [[|y s]|[|y l]]; reflexivity.
    + injection E as <-. reflexivity.
Qed.

(** ** Entries of an element *)
Lemma ents_inv k f e x : ents k f e = Ok x -> exists subs texts standalone,
  sub_annotations_of sp compiles re_spans xpath root e (fc_subs f) = Ok subs /\
  (if uses_children sp root f e then extract_children sp dg parse_int show_int xpath content_excluding root e f = Ok (texts, standalone)
   else exists ex, found_by (fc_ignore f) e ex /\ texts = truthy_only (strip_all sp [raw_content wd root ex e]) /\ standalone = []) /\
  x = match text_value (with_extract sp re_spans f (with_pattern re_group f texts)) with
      | Some v => [((- fc_priority f, pos e, None)%Z, mkTgt k v (fc_multiple f) (fc_bonding f) (fc_next f) subs)]
      | None => []
      end ++ map (fun iv => ((- fc_priority f, pos e, Some (fst iv))%Z, mkTgt k (VOne (snd iv)) (fc_multiple f) (fc_bonding f) false subs)) (indexed standalone).
Proof using.
  unfold ents, tgt_entries. destruct (all_xpaths xpath e (fc_ignore f)) as [ex|] eqn:E1; [|discriminate]. cbn [bind]. apply all_xpaths_spec in E1.
  destruct (sub_annotations_of _ _ _ _ _ _ _) as [subs|]; [|discriminate]. cbn [bind].
  destruct (uses_children sp root f e) eqn:Eu.
  - destruct (extract_children _ _ _ _ _ _ _ _ _) as [[texts st]|]; [|discriminate]. cbn [bind fst snd]. intros [= <-]. exists subs, texts, st. now repeat split.
  - cbn [bind fst snd]. intros [= <-]. exists subs, (truthy_only (strip_all sp [raw_content wd root ex e])), []. repeat split. now exists ex.
Qed.
Lemma ents_in k f e x kk t : ents k f e = Ok x -> In (kk, t) x ->
  tg_name t = k /\ tg_multiple t = fc_multiple f /\ tg_bonding t = fc_bonding f /\ (tg_next t = true -> fc_next f = true) /\
  sub_annotations_of sp compiles re_spans xpath root e (fc_subs f) = Ok (tg_subs t).
Proof using.
  intros H Hin. apply ents_inv in H as (subs & texts & st & Hs & _ & ->). apply in_app_or in Hin as [Hin|Hin].
  - destruct (text_value _); [|destruct Hin]. destruct Hin as [[= _ <-]|[]]. now repeat split.
  - apply in_map_iff in Hin as (iv & [= _ <-] & _). repeat split; try assumption. discriminate.
Qed.

(* ---------------------------------------------------------------- *)
(** ** Theorems *)
(** The names of annotations are fields of the section of the root element, those of sub
    annotations their sub fields. *)
Theorem C88_names : forall xm tag l t, T xm tag = Ok l -> In t l ->
  exists m, dict_get tag xm = Some m /\ In (tg_name t) (map fst m) /\ plain_name (tg_name t) /\
    forall n v, In (n, v) (tg_subs t) -> plain_name n /\ In (tg_name t ++ u ".sub." ++ n) (map fst m).
Proof using sp_ws4.
  intros xm tag l t H Hin. destruct (targets_in _ _ _ _ H Hin) as (m & k & f & es & e & x & kk & Hm & Hk & Hf & He & Hein & Hx & Hkk).
  apply (ents_in _ _ _ _ _ _ Hx) in Hkk as (<- & _ & _ & _ & Hs). apply field_names_spec in Hk as [Hk Hp]. exists m. repeat (split; [assumption|]).
  intros n v Hnv. apply subs_spec in Hs as (founds & HF & Hs). rewrite Hs in Hnv. apply in_concat in Hnv as (y & Hy & Hnv). apply in_map_iff in Hy as (z & <- & Hz).
  apply in_flat_map in Hnv as (p & _ & Hnv). apply in_map_iff in Hnv as (v' & [= <- <-] & _). destruct z as [[[n0 x0] re] ns]. cbn [fst snd]. apply in_combine_l in Hz.
  apply conf_fields in Hf as (_ & _ & _ & _ & _ & _ & _ & _ & _ & _ & Hsub). rewrite Hsub in Hz. apply in_map_iff in Hz as ([n1 x1] & [= <- <- <-] & Hz).
  apply C62_sub_mapping in Hz as [Hz1 Hz2]. split; [exact Hz1|]. apply in_map_iff. now exists (tg_name t ++ u ".sub." ++ n1, x1).
Qed.
(** The flags are those of the field. *)
Theorem C88_flags : forall xm tag l t, T xm tag = Ok l -> In t l -> exists m, dict_get tag xm = Some m /\
  (tg_multiple t = true <-> option_of m (tg_name t) ".match-multiple" = Some (u "true")) /\
  (tg_bonding t = true <-> option_of m (tg_name t) ".bonding" = Some (u "true")) /\
  (tg_next t = true -> option_of m (tg_name t) ".require-next" = Some (u "true")).
Proof using.
  intros xm tag l t H Hin. destruct (targets_in _ _ _ _ H Hin) as (m & k & f & es & e & x & kk & Hm & Hk & Hf & He & Hein & Hx & Hkk).
  apply (ents_in _ _ _ _ _ _ Hx) in Hkk as (<- & H1 & H2 & H3 & _). apply conf_fields in Hf as (_ & _ & _ & _ & _ & _ & F1 & F2 & F3 & _).
  exists m. split; [exact Hm|]. rewrite H1, H2. split; [exact F1|]. split; [exact F2|]. intros G. now apply F3, H3.
Qed.
(** Sub annotations: for each sub field, one per element found with a text (without
    regular expressions). *)
Definition no_sub_regex (m : options) (k : str) : Prop :=
  forall n, In (k ++ u ".sub." ++ n) (map fst m) -> plain_name n -> truthy (option_of m (k ++ u ".sub." ++ n) ".extract-regex") = false.
Definition sub_texts (n : str) (ns : list npath) : list (str * tvalue) :=
  map (fun s => (n, VOne s)) (filter nonempty (map clean_text ns)).
Theorem C88_subs : forall xm tag l t m, T xm tag = Ok l -> In t l -> dict_get tag xm = Some m -> no_sub_regex m (tg_name t) ->
  exists es e founds, found_by (parse_xpaths sp (dict_get (tg_name t) m)) [] es /\ In e es /\
    Forall2 (fun kv ns => xpath e (snd kv) = Ok ns) (sub_mapping m (tg_name t)) founds /\
    tg_subs t = concat (map (fun x => sub_texts (fst (fst x)) (snd x)) (combine (sub_mapping m (tg_name t)) founds)).
Proof using sp_ws4.
  intros xm tag l t m H Hin Hm Hno. destruct (targets_in _ _ _ _ H Hin) as (m' & k & f & es & e & x & kk & Hm' & Hk & Hf & He & Hein & Hx & Hkk).
  assert (m' = m) as -> by congruence. apply (ents_in _ _ _ _ _ _ Hx) in Hkk as (Hn & _ & _ & _ & Hs). subst k.
  apply conf_fields in Hf as (Hxp & _ & _ & _ & _ & _ & _ & _ & _ & _ & Hsub). rewrite Hxp in He. apply subs_spec in Hs as (founds & HF & Hs). rewrite Hsub in HF, Hs.
  exists es, e, founds. split; [exact He|]. split; [exact Hein|].
  assert (Hre : forall kv, In kv (sub_mapping m (tg_name t)) -> truthy (option_of m (tg_name t ++ u ".sub." ++ fst kv) ".extract-regex") = false).
  { intros [n v] Hkv. apply C62_sub_mapping in Hkv as [A B]. apply Hno; [|exact A]. apply in_map_iff. now exists (tg_name t ++ u ".sub." ++ n, v). }
  clear - HF Hs Hre. rewrite Hs. clear Hs. revert founds HF. induction (sub_mapping m (tg_name t)) as [|kv sm IH]; intros founds HF; inversion HF as [|? ns ? founds' H1 H2]; subst; [split; [constructor|reflexivity]|].
  destruct (IH (fun kv H => Hre kv (or_intror H)) _ H2) as [I1 I2]. split; [now constructor|]. cbn [combine map concat fst snd]. f_equal; [|exact I2].
  specialize (Hre kv (or_introl eq_refl)). unfold sub_texts. clear - Hre. induction ns as [|p ns IH]; [reflexivity|]. cbn [flat_map map filter]. rewrite IH.
  unfold sub_values. destruct (clean_text p) as [|c s]; [reflexivity|]. destruct (option_of _ _ _) as [[|d r]|]; [reflexivity|discriminate|reflexivity].
Qed.
(** ... so their values are single texts. *)
Theorem C88_plain_subs : forall xm tag l t m, T xm tag = Ok l -> In t l -> dict_get tag xm = Some m -> no_sub_regex m (tg_name t) ->
  forall n v, In (n, v) (tg_subs t) -> exists s, v = VOne s /\ s <> [] /\ no_outer_space sp s.
Proof using sp_ws4.
  intros xm tag l t m H Hin Hm Hno n v Hnv. destruct (C88_subs _ _ _ _ _ H Hin Hm Hno) as (es & e & founds & _ & _ & _ & E). rewrite E in Hnv.
  apply in_concat in Hnv as (y & Hy & Hnv). apply in_map_iff in Hy as (z & <- & _). unfold sub_texts in Hnv. apply in_map_iff in Hnv as (s & [= <- <-] & Hs).
  apply filter_In in Hs as [Hs Hne]. apply nonempty_spec in Hne. exists s. repeat split; [exact Hne|]. apply in_map_iff in Hs as (p & <- & _). apply stripped_clean.
Qed.
End Spaces.

(** A field without further options: one annotation per element that is found and has a
    text, with that text. *)
Definition text_of_element (e : npath) : str := match node_at root e with Some n => strip sp (raw_text wd (itertext n)) | None => [] end.
Lemma fents_names m k l : fents m k = Ok l -> forall x, In x l -> tg_name (snd x) = k.
Proof.
  intros H [kk t] Hin. apply fents_inv in H as (f & es & ls & _ & _ & HF & ->). apply in_concat in Hin as (y & Hy & Hin). destruct (F2_in_r _ _ _ HF y Hy) as (e & _ & E).
  exact (proj1 (ents_in _ _ _ _ _ _ E Hin)).
Qed.
Lemma filter_none {A} (f : A -> bool) l : (forall x, In x l -> f x = false) -> filter f l = [].
Proof. induction l as [|x l IH]; intros H; [reflexivity|]. cbn [filter]. rewrite (H x (or_introl eq_refl)). apply IH. intros; apply H; now right. Qed.
Lemma filter_every {A} (f : A -> bool) l : (forall x, In x l -> f x = true) -> filter f l = l.
Proof. induction l as [|x l IH]; intros H; [reflexivity|]. cbn [filter]. rewrite (H x (or_introl eq_refl)). f_equal. apply IH. intros; apply H; now right. Qed.
Lemma filter_perm {A} (f : A -> bool) l l' : Permutation l l' -> Permutation (filter f l) (filter f l').
Proof.
  induction 1 as [|x l l' H IH|x y l|l l' l'' H1 IH1 H2 IH2]; cbn [filter]; [constructor| | |now transitivity (filter f l')].
  - destruct (f x); [now constructor|exact IH].
  - destruct (f x), (f y); try reflexivity. constructor.
Qed.
Lemma filter_map_comm {A B} (g : A -> B) (f : B -> bool) l : filter f (map g l) = map g (filter (fun x => f (g x)) l).
Proof. induction l as [|x l IH]; [reflexivity|]. cbn [map filter]. rewrite IH. now destruct (f (g x)). Qed.
(** the annotations of one field *)
Lemma targets_of_field xm tag l m k : T xm tag = Ok l -> dict_get tag xm = Some m -> NoDup (map fst m) -> In k (field_names m) ->
  exists es, fents m k = Ok es /\ Permutation (filter (fun t => streq (tg_name t) k) l) (map snd es).
Proof.
  intros H Hm Hnd Hk. apply targets_inv in H as (m' & ls & Hm' & HF & ->). assert (m' = m) as -> by congruence.
  assert (Hnf : NoDup (field_names m)) by (now apply NoDup_filter).
  enough (G : forall names ls, Forall2 (fun k es => fents m k = Ok es) names ls -> NoDup names ->
     (~ In k names -> filter (fun x => streq (tg_name (snd x)) k) (concat ls) = []) /\
     (In k names -> exists es, fents m k = Ok es /\ filter (fun x => streq (tg_name (snd x)) k) (concat ls) = es)).
  { destruct (proj2 (G _ _ HF Hnf) Hk) as (es & E1 & E2). exists es. split; [exact E1|].
    etransitivity; [apply filter_perm, Permutation_map, sort_perm|]. rewrite filter_map_comm. now rewrite E2. }
  clear HF Hnd Hnf Hk Hm Hm' ls. intros names ls HF. induction HF as [|k' es names ls He HF IH]; intros Hnd; [split; [reflexivity|intros []]|].
  inversion Hnd as [|? ? Hni Hnd']; subst. destruct (IH Hnd') as [I1 I2]. cbn [concat]. rewrite filter_app. split.
  - intros Hn. rewrite I1 by (intros ?; apply Hn; now right). rewrite app_nil_r. apply filter_none. intros x Hx. rewrite (fents_names _ _ _ He x Hx).
    apply streq_false. intros ->. apply Hn. now left.
  - intros [->|Hin].
    + exists es. split; [exact He|]. rewrite I1 by exact Hni. rewrite app_nil_r. apply filter_every. intros x Hx. rewrite (fents_names _ _ _ He x Hx). now apply streq_true.
    + destruct (I2 Hin) as (es' & E1 & E2). exists es'. split; [exact E1|]. rewrite E2. rewrite filter_none; [reflexivity|]. intros x Hx. rewrite (fents_names _ _ _ He x Hx).
      apply streq_false. intros ->. contradiction.
Qed.
Theorem C88_plain : forall xm tag l m k, T xm tag = Ok l -> dict_get tag xm = Some m -> NoDup (map fst m) -> In k (map fst m) -> plain_name k -> plain_options m k ->
  exists es, found_by (parse_xpaths sp (dict_get k m)) [] es /\
    Permutation (map tg_value (filter (fun t => streq (tg_name t) k) l)) (map VOne (filter nonempty (map text_of_element es))).
Proof.
  intros xm tag l m k H Hm Hnd Hk Hp Hpl. destruct (targets_of_field _ _ _ _ k H Hm Hnd) as (x & Hx & P); [now apply field_names_spec|].
  apply fents_inv in Hx as (f & es & ls & Hf & He & HF & ->). pose proof (conf_fields _ _ _ Hf) as (Hxp & Hig & Hch & Hre & Hex & _). rewrite Hxp in He. exists es. split; [exact He|].
  etransitivity; [exact (Permutation_map tg_value P)|]. clear P. rewrite (Hpl ".ignore"%string) in Hig by (now left). rewrite (Hpl ".children"%string) in Hch by (right; now left).
  rewrite (Hpl ".regex"%string) in Hre by (do 2 right; now left). rewrite (Hpl ".extract-regex"%string) in Hex by (do 3 right; now left). cbn in Hig, Hch, Hre, Hex.
  enough (E : map tg_value (map snd (concat ls)) = map VOne (filter nonempty (map text_of_element es))) by (rewrite E; reflexivity).
  clear - HF Hig Hch Hre Hex pos. induction HF as [|e x es ls Hx HF IH]; [reflexivity|]. rewrite concat_cons, !map_app, IH. clear IH.
  apply ents_inv in Hx as (subs & texts & st & _ & Ht & ->). unfold uses_children in Ht. rewrite Hch in Ht. destruct Ht as (ex & Hf & -> & ->). rewrite Hig in Hf.
  destruct Hf as (ls0 & Hf & ->). inversion Hf; subst. cbn [concat]. cbn [indexed length seq map combine]. rewrite app_nil_r. unfold with_pattern, with_extract. rewrite Hre, Hex.
  assert (E : strip_all sp [raw_content wd root [] e] = [text_of_element e]).
  { unfold strip_all, raw_content, text_of_element. cbn [map]. destruct (node_at root e); reflexivity. }
  rewrite E. unfold truthy_only. cbn [filter]. destruct (text_of_element e) as [|c s]; cbn [nonempty]; reflexivity.
Qed.

(** Values: a text that is not empty, or several texts, the longest first. *)
Definition proper_value (v : tvalue) : Prop :=
  match v with VOne s => s <> [] | VMany l => 2 <= length l /\ StronglySorted (fun a b => length b <= length a) l end.
Lemma text_value_spec l v : text_value l = Some v -> (forall s, l = [s] -> s <> []) ->
  proper_value v /\ match v with VOne s => l = [s] | VMany k => Permutation k l end.
Proof.
  destruct l as [|x [|y k]]; cbn [text_value]; [discriminate| |]; intros E H.
  - injection E as <-. split; [now apply H|reflexivity].
  - assert (v = VMany (longest_first (x :: y :: k))) as -> by congruence. split; [|apply longest_perm]. split.
    + rewrite (Permutation_length (longest_perm _)). cbn [length]. lia.
    + pose proof (longest_sorted (x :: y :: k)) as G. clear - G. induction G as [|a l G IH F]; constructor; [exact IH|]. eapply Forall_impl; [|exact F].
      intros b Hb. unfold slen in Hb. lia.
Qed.
Lemma extract_texts_nonempty e f texts st : extract_children sp dg parse_int show_int xpath content_excluding root e f = Ok (texts, st) -> forall s, In s texts -> s <> [].
Proof.
  unfold extract_children. destruct (children_concat _ _ _ _ _) as [c|]; [|discriminate]. cbn [bind].
  destruct (children_range _ _ _ _ _ _ _ _) as [[[rv sta] ru]|]; [|discriminate]. cbn [bind]. destruct (all_xpaths _ _ _) as [found|]; [|discriminate]. cbn [bind].
  destruct (mapM _ _) as [ts|]; [|discriminate]. cbn [bind].
  match goal with |- context [if fc_unmatched f then _ else Ok ?l] => set (l2 := l) end.
  assert (H2 : forall s, In s l2 -> s <> []).
  { intros s Hs. unfold l2 in Hs. apply in_app_or in Hs as [Hs|Hs]; [now apply truthy_in in Hs|]. apply in_flat_map in Hs as (p & _ & Hs). now apply truthy_in in Hs. }
  clearbody l2. destruct (fc_unmatched f).
  - rewrite stripped_ok. cbn [bind]. intros [= <- <-] s Hs. destruct (nonempty _ && _) eqn:E; [|now apply H2]. apply andb_true_iff in E as [E _]. apply nonempty_spec in E.
    apply in_app_or in Hs as [Hs|[<-|[]]]; [now apply H2|exact E].
  - cbn [bind]. intros [= <- <-]. exact H2.
Qed.
Lemma pattern_nonempty f l : (forall s, In s l -> s <> []) -> forall s, In s (with_pattern re_group f l) -> s <> [].
Proof.
  unfold with_pattern. destruct (fc_regex f) as [[|c p]|]; [easy| |easy]. intros H s Hs. apply in_flat_map in Hs as (x & Hx & Hs).
  destruct (re_group _ x) as [[[|d g]|]|]; [destruct Hs|destruct Hs as [<-|[]]; discriminate|destruct Hs|now apply truthy_in in Hs].
Qed.
Lemma pieces_ne s m spans : extract_pieces sp s (m :: spans) <> [].
Proof.
  unfold extract_pieces. assert (G : forall l r st, r <> [] \/ l <> [] -> fst (fold_left (extract_step sp s) l (r, st)) <> []).
  { induction l as [|x l IH]; intros r st H; cbn [fold_left fst]; [tauto|]. apply IH. left. now destruct r, (st <? fst x)%Z. }
  assert (G0 : fst (fold_left (extract_step sp s) (m :: spans) ([], 0%Z)) <> []) by (apply G; right; easy). clear G. revert G0.
  generalize (fold_left (extract_step sp s) (m :: spans) ([], 0%Z)). intros [r st] G0. cbn [fst] in G0. destruct (_ <? _)%Z; [now destruct r|exact G0].
Qed.
Lemma many_length s spans l : extract_using_regex sp s spans = Many l -> 3 <= length l /\ In s l.
Proof.
  unfold extract_using_regex. destruct spans as [|m spans]; [discriminate|]. pose proof (pieces_ne s m spans) as H.
  destruct (extract_pieces sp s (m :: spans)) as [|x [|y k]]; [easy|discriminate|]. intros E. assert (l = (x :: y :: k) ++ [s]) as -> by congruence.
  split; [rewrite app_length; cbn [length]; lia|]. apply in_or_app. right. now left.
Qed.
Lemma extract_singleton f l s : (forall s, In s l -> s <> []) -> with_extract sp re_spans f l = [s] -> s <> [].
Proof.
  unfold with_extract. destruct (fc_extract f) as [[|c p]|]; intros H E; [apply H; rewrite E; now left| |apply H; rewrite E; now left].
  set (g := fun x => extract_using_regex sp x (re_spans (c :: p) x)) in E.
  assert (G : forall x, In x (filter truthy_extracted (map g l)) -> match x with One y => y <> [] | Many k => 3 <= length k end).
  { intros x Hx. apply filter_In in Hx as [Hx Ht]. apply in_map_iff in Hx as (y & Hy & _). unfold g in Hy.
    destruct x as [z|k]; cbn in Ht; [now apply nonempty_spec|]. eapply many_length, Hy. }
  destruct (filter truthy_extracted (map g l)) as [|[y|k] r]; [discriminate| |]; cbn in E.
  - injection E as -> _. exact (G (One s) (or_introl eq_refl)).
  - pose proof (G (Many k) (or_introl eq_refl)) as L. cbn in L. apply (f_equal (@length _)) in E. rewrite app_length in E. cbn in E. lia.
Qed.
Theorem C88_values : (forall z, show_int z <> []) -> forall xm tag l t, T xm tag = Ok l -> In t l -> proper_value (tg_value t).
Proof.
  intros Hsh xm tag l t H Hin. destruct (targets_in _ _ _ _ H Hin) as (m & k & f & es & e & x & kk & Hm & Hk & Hf & He & Hein & Hx & Hkk).
  apply ents_inv in Hx as (subs & texts & st & _ & Ht & ->).
  assert (Hne : forall s, In s texts -> s <> []).
  { destruct (uses_children sp root f e); [eapply extract_texts_nonempty, Ht|]. destruct Ht as (ex & _ & -> & _). intros s Hs. now apply truthy_in in Hs. }
  assert (Hst : forall s, In s st -> exists z, s = show_int z).
  { destruct (uses_children sp root f e); [|destruct Ht as (ex & _ & _ & ->); intros s []]. clear - Ht. unfold extract_children in Ht.
    destruct (children_concat _ _ _ _ _) as [c|]; [|discriminate]. cbn [bind] in Ht. unfold children_range in Ht.
    destruct (foldM _ _ _) as [[[rv sta] ru]|] eqn:E; [|discriminate]. cbn [bind] in Ht. destruct (all_xpaths _ _ _) as [found|]; [|discriminate]. cbn [bind] in Ht.
    destruct (mapM _ _) as [ts|]; [|discriminate]. cbn [bind] in Ht. match type of Ht with bind ?y _ = _ => destruct y; [|discriminate] end. cbn [bind] in Ht. injection Ht as _ <-.
    assert (G : forall items st0 st1, foldM (range_step sp dg parse_int show_int xpath root e) st0 items = Ok st1 ->
       (forall s, In s (snd (fst st0)) -> exists z, s = show_int z) -> forall s, In s (snd (fst st1)) -> exists z, s = show_int z).
    { clear. induction items as [|i items IH]; intros st0 st1 H H0; cbn [foldM] in H; [now injection H as <-|].
      destruct (range_step _ _ _ _ _ _ _ _ _) as [st'|] eqn:E; [|discriminate]. cbn [bind] in H. apply (IH _ _ H). clear IH H. unfold range_step in E. destruct st0 as [[v sa] us].
      destruct (source_list _ _ _ _ _) as [r|]; [|discriminate]. cbn [bind] in E. destruct (strip_all sp (fst r)) as [|a [|b [|? ?]]]; try (injection E as <-; exact H0).
      destruct (is_digits dg a && is_digits dg b); [|injection E as <-; exact H0]. destruct (to_int parse_int a) as [na|]; [|discriminate]. cbn [bind] in E.
      destruct (to_int parse_int b) as [nb|]; [|discriminate]. cbn [bind] in E. injection E as <-. destruct (ri_standalone i); [|exact H0]. cbn [fst snd] in *.
      intros s Hs. apply in_app_or in Hs as [Hs|Hs]; [now apply H0|]. apply in_map_iff in Hs as (z & <- & _). now exists z. }
    exact (G _ _ _ E (fun s H => match H with end)). }
  apply in_app_or in Hkk as [Hkk|Hkk].
  - destruct (text_value _) as [v|] eqn:E; [|destruct Hkk]. destruct Hkk as [[= _ <-]|[]]. cbn [tg_value]. apply (text_value_spec _ _ E).
    intros s. apply extract_singleton. now apply pattern_nonempty.
  - apply in_map_iff in Hkk as ([i s] & [= _ <-] & Hs). cbn [tg_value snd proper_value]. apply in_combine_r in Hs. destruct (Hst s Hs) as [z ->]. apply Hsh.
Qed.

(** The order is that of [target_annotations] (C36): higher priorities first, then document
    order, with the priority of each field and the positions of its elements. *)
Definition field_of (m : options) (k : str) (fd : field) : Prop :=
  fd_name fd = k /\
  match option_of m k ".priority" with Some s => parse_int s = Some (fd_priority fd) | None => fd_priority fd = 0%Z end /\
  exists es, found_by (parse_xpaths sp (dict_get k m)) [] es /\
    map m_pos (fd_matches fd) = map (fun e => Z.of_nat (index_of e (paths_from [] root))) es.
Theorem C88_order : forall xm tag l, T xm tag = Ok l -> exists m fields, dict_get tag xm = Some m /\
  Forall2 (field_of m) (field_names m) fields /\
  map (fun t => mkTarget (tg_name t) (tg_value t)) l = target_annotations fields.
Proof.
  intros xm tag l H. apply targets_inv in H as (m & ls & Hm & HF & ->). exists m.
  set (g := fun x : key * tgt => (fst x, mkTarget (tg_name (snd x)) (tg_value (snd x)))).
  enough (G : exists fields, Forall2 (field_of m) (field_names m) fields /\ map g (concat ls) = entries fields).
  { destruct G as (fields & G1 & G2). exists fields. split; [exact Hm|]. split; [exact G1|]. unfold target_annotations, sorted_entries. rewrite <- G2.
    rewrite <- (sort_map g (fun a b => key_leb (fst a) (fst b))) by reflexivity. rewrite !map_map. reflexivity. }
  clear Hm. induction HF as [|k es names ls He HF (fields & I1 & I2)]; [exists []; split; [constructor|reflexivity]|].
  apply fents_inv in He as (f & els & xs & Hf & Hfound & HF2 & ->). apply conf_fields in Hf as (Hxp & _ & _ & _ & _ & Hpr & _). rewrite Hxp in Hfound.
  assert (G : exists ms, map m_pos ms = map (fun e => Z.of_nat (index_of e (paths_from [] root))) els /\ map g (concat xs) = flat_map (match_entries (mkField k (fc_priority f) [])) ms).
  { clear - HF2 pos g. induction HF2 as [|e x els xs Hx HF2 (ms & J1 & J2)]; [exists []; split; reflexivity|].
    apply ents_inv in Hx as (subs & texts & st & _ & _ & ->).
    exists (mkMatch (pos e) (with_extract sp re_spans f (with_pattern re_group f texts)) st :: ms). split; [cbn [map m_pos]; now rewrite J1|].
    rewrite concat_cons, map_app, J2. cbn [flat_map]. f_equal. unfold match_entries. cbn [m_texts m_pos m_standalone fd_priority fd_name]. rewrite map_app. f_equal.
    - destruct (text_value _); reflexivity.
    - rewrite map_map. reflexivity. }
  destruct G as (ms & J1 & J2). exists (mkField k (fc_priority f) ms :: fields). split.
  - constructor; [|exact I1]. split; [reflexivity|]. split; [exact Hpr|]. exists els. split; [exact Hfound|exact J1].
  - rewrite concat_cons, map_app, J2, I2. reflexivity.
Qed.

(** Annotations are made exactly for documents with a section and readable options. *)
Definition readable {A} (parse : str -> res A) (o : ostr) : Prop := match o with Some ((_ :: _) as s) => exists x, parse s = Ok x | _ => True end.
Definition regex_ok (o : ostr) : Prop := match o with Some ((_ :: _) as s) => compiles s = true | _ => True end.
Definition good_options (m : options) (k : str) : Prop :=
  readable json_concat (option_of m k ".children.concat") /\ readable json_range (option_of m k ".children.range") /\
  regex_ok (option_of m k ".regex") /\ regex_ok (option_of m k ".extract-regex") /\
  match option_of m k ".priority" with Some s => parse_int s <> None | None => True end /\
  readable (strtobool lower) (option_of m k ".use-raw-text").
Definition good_subs (m : options) (k : str) : Prop :=
  forall n, In (k ++ u ".sub." ++ n) (map fst m) -> plain_name n -> regex_ok (option_of m (k ++ u ".sub." ++ n) ".extract-regex").
Definition ok {A} (r : res A) : Prop := exists x, r = Ok x.
Lemma conf_ok m k : ok (conf m k) <-> good_options m k.
Proof.
  assert (D : forall A (p : str -> res (list A)) o, ok (or_default p o) <-> readable p o).
  { intros A p [[|c s]|]; cbn; unfold ok; [split; eauto|reflexivity|split; eauto]. }
  assert (C : forall o, ok (compiled compiles o) <-> regex_ok o).
  { intros [[|c s]|]; cbn; unfold ok; [split; eauto| |split; eauto]. destruct (compiles _); split; eauto; [intros [x E]; discriminate|discriminate]. }
  unfold conf, field_conf, good_options. change (opt m k) with (option_of m k). rewrite <- !D, <- !C. unfold ok. split.
  - intros [x H]. repeat (match type of H with bind ?y _ = _ => let E := fresh in destruct y eqn:E; [cbn [bind] in H|discriminate H] end).
    do 4 (split; [eexists; reflexivity|]). clear - H4 H5. split.
    + destruct (option_of m k ".priority") as [s|]; [|exact I]. unfold to_int in H4. destruct (parse_int s); [discriminate|discriminate H4].
    + destruct (option_of m k ".use-raw-text") as [[|c s]|]; cbn [readable]; auto. destruct (strtobool lower (c :: s)); [eexists; reflexivity|discriminate H5].
  - intros ((x1 & ->) & (x2 & ->) & (x3 & ->) & (x4 & ->) & Hp & Hr). cbn [bind].
    assert (P : exists p, match option_of m k ".priority" with Some s => to_int parse_int s | None => Ok 0%Z end = Ok p).
    { destruct (option_of m k ".priority") as [s|]; [|now exists 0%Z]. unfold to_int. destruct (parse_int s); [eexists; reflexivity|easy]. }
    destruct P as [p ->]. cbn [bind].
    assert (R : exists r, match option_of m k ".use-raw-text" with Some ((_ :: _) as s) => do b <- strtobool lower s ;; Ok (Some b) | _ => Ok None end = Ok r).
    { destruct (option_of m k ".use-raw-text") as [[|c s]|]; cbn [readable] in Hr; try (eexists; reflexivity). destruct Hr as [b ->]. cbn [bind]. eexists; reflexivity. }
    destruct R as [r ->]. cbn [bind]. eexists. reflexivity.
Qed.
Lemma mapM_ok {A B} (f : A -> res B) l : (forall x, In x l -> ok (f x)) -> ok (mapM f l).
Proof.
  induction l as [|x l IH]; intros H; cbn [mapM]; [eexists; reflexivity|]. destruct (H x (or_introl eq_refl)) as [y ->]. cbn [bind].
  destruct IH as [r ->]; [intros; apply H; now right|]. cbn [bind]. eexists. reflexivity.
Qed.
Lemma foldM_ok {A B} (f : A -> B -> res A) l : (forall a b, In b l -> ok (f a b)) -> forall a, ok (foldM f a l).
Proof.
  induction l as [|x l IH]; intros H a; cbn [foldM]; [eexists; reflexivity|]. destruct (H a x (or_introl eq_refl)) as [y ->]. cbn [bind].
  apply IH. intros; apply H; now right.
Qed.
(** the XPath expressions that the options of a field have *)
Definition expression (m : options) (k x : str) : Prop :=
  In x (parse_xpaths sp (dict_get k m)) \/ In x (parse_xpaths sp (option_of m k ".ignore")) \/ In x (parse_xpaths sp (option_of m k ".children")) \/
  (exists n, plain_name n /\ In (k ++ u ".sub." ++ n, x) m) \/
  (exists s items item source, option_of m k ".children.concat" = Some s /\ json_concat s = Ok items /\ In item items /\ In source item /\ s_xpath source = Some x) \/
  exists s items item, option_of m k ".children.range" = Some s /\ json_range s = Ok items /\ In item items /\ (s_xpath (ri_min item) = Some x \/ s_xpath (ri_max item) = Some x).
Lemma conf_json m k f : conf m k = Ok f ->
  (fc_concat f = [] \/ exists s, option_of m k ".children.concat" = Some s /\ json_concat s = Ok (fc_concat f)) /\
  (fc_range f = [] \/ exists s, option_of m k ".children.range" = Some s /\ json_range s = Ok (fc_range f)).
Proof.
  unfold conf, field_conf. change (opt m k) with (option_of m k). intros H.
  assert (D : forall A (p : str -> res (list A)) o r, or_default p o = Ok r -> r = [] \/ exists s, o = Some s /\ p s = Ok r).
  { intros A p [[|c s]|] r; cbn; intros E; [left; congruence|right; now exists (c :: s)|left; congruence]. }
  destruct (or_default json_concat _) as [cc|] eqn:E1; [|discriminate]. cbn [bind] in H. destruct (or_default json_range _) as [rr|] eqn:E2; [|discriminate]. cbn [bind] in H.
  apply D in E1, E2. repeat match type of H with bind ?x _ = _ => destruct x; [|discriminate]; cbn [bind] in H end. injection H as <-. cbn [fc_concat fc_range]. now split.
Qed.
Section Total.
Variable m : options.
Variable k : str.
Hypothesis xpath_ok : forall e x, expression m k x -> ok (xpath e x).
Hypothesis digits_ok : forall s, s <> [] -> forallb dg s = true -> parse_int s <> None.
Lemma source_list_ok e l : (forall s x, In s l -> s_xpath s = Some x -> expression m k x) -> ok (source_list sp xpath root e l).
Proof using xpath_ok.
  intros Hl. unfold source_list. generalize (@nil str), (@nil npath). induction l as [|s l IH]; intros vs us; cbn [source_list_go]; [eexists; reflexivity|].
  specialize (IH (fun s x Hs => Hl s x (or_intror Hs))). specialize (Hl s).
  destruct (s_xpath s) as [[|c x]|]; [apply IH| |apply IH]. destruct (xpath_ok e (c :: x) (Hl _ (or_introl eq_refl) eq_refl)) as [found ->]. cbn [bind].
  destruct (exclude_parents found) as [|p ns]; [eexists; reflexivity|]. destruct (mapM_ok (fun p => stripped sp (content root p)) (p :: ns)) as [ts ->]; [intros q _; rewrite stripped_ok; eexists; reflexivity|].
  cbn [bind]. apply IH.
Qed.
Lemma to_int_ok s : is_digits dg s = true -> ok (to_int parse_int s).
Proof using digits_ok.
  unfold is_digits, to_int. intros H. apply andb_true_iff in H as [H1 H2]. apply nonempty_spec in H1. specialize (digits_ok s H1 H2). destruct (parse_int s); [eexists; reflexivity|easy].
Qed.
Lemma extract_children_ok e f : conf m k = Ok f -> ok (extract_children sp dg parse_int show_int xpath content_excluding root e f).
Proof using xpath_ok digits_ok.
  intros Hf. destruct (conf_json _ _ _ Hf) as [Jc Jr]. apply conf_fields in Hf as (_ & _ & Hch & _).
  unfold extract_children. unfold children_concat.
  match goal with |- context [foldM ?g ?x (fc_concat f)] => assert (G : ok (foldM g x (fc_concat f))); [apply foldM_ok|destruct G as [c ->]] end.
  { intros a b Hb. destruct (source_list_ok e b) as [r ->]; [|cbn [bind]; eexists; reflexivity]. intros s x Hs Hx. destruct Jc as [Jc|(t & J1 & J2)]; [rewrite Jc in Hb; easy|].
    do 4 right. left. now exists t, (fc_concat f), b, s. }
  cbn [bind]. unfold children_range. match goal with |- context [foldM ?g ?x (fc_range f)] => assert (G : ok (foldM g x (fc_range f))); [apply foldM_ok|destruct G as [[[rv st] ru] ->]] end.
  { intros [[v sa] us] b Hb. unfold range_step. destruct (source_list_ok e [ri_min b; ri_max b]) as [r ->].
    { intros s x Hs Hx. destruct Jr as [Jr|(t & J1 & J2)]; [rewrite Jr in Hb; easy|]. do 5 right. exists t, (fc_range f), b. repeat split; auto. destruct Hs as [<-|[<-|[]]]; auto. }
    cbn [bind].
    destruct (strip_all sp (fst r)) as [|x [|y [|? ?]]]; try (eexists; reflexivity). destruct (is_digits dg x) eqn:Ex; [|eexists; reflexivity].
    destruct (is_digits dg y) eqn:Ey; [|eexists; reflexivity]. cbn [andb]. destruct (to_int_ok x Ex) as [nx ->]. destruct (to_int_ok y Ey) as [ny ->]. cbn [bind].
    eexists. reflexivity. }
  cbn [bind]. unfold all_xpaths. destruct (mapM_ok (xpath e) (fc_children f)) as [ls ->]; [intros x Hx; apply xpath_ok; rewrite Hch in Hx; do 2 right; now left|]. cbn [bind].
  match goal with |- context [mapM ?g ?l] => destruct (mapM_ok g l) as [ts ->] end; [intros q _; rewrite stripped_ok; eexists; reflexivity|]. cbn [bind].
  destruct (fc_unmatched f); [rewrite stripped_ok|]; cbn [bind]; eexists; reflexivity.
Qed.
Lemma field_ok : (forall c, ws4 c = true -> sp c = true) -> good_options m k -> good_subs m k -> ok (fents m k).
Proof using xpath_ok digits_ok.
  intros Hsp G1 G2. unfold fents, field_entries. fold conf. fold ents.
  destruct (proj2 (conf_ok m k) G1) as [f Hf]. pose proof (conf_fields _ _ _ Hf) as (Hxp & Hig & _). rewrite Hf. cbn [bind]. unfold all_xpaths at 1.
  destruct (mapM_ok (xpath []) (fc_xpaths f)) as [es ->]; [intros x Hx; apply xpath_ok; rewrite Hxp in Hx; now left|]. cbn [bind].
  destruct (mapM_ok (ents k f) (concat es)) as [x ->]; [|cbn [bind]; eexists; reflexivity]. intros e _. unfold ents, tgt_entries.
  unfold all_xpaths at 1. destruct (mapM_ok (xpath e) (fc_ignore f)) as [ex ->]; [intros x Hx; apply xpath_ok; rewrite Hig in Hx; right; now left|]. cbn [bind]. unfold sub_annotations_of.
  match goal with |- context [foldM ?g ?a (fc_subs f)] => assert (G : ok (foldM g a (fc_subs f))); [apply foldM_ok|destruct G as [subs ->]] end.
  { intros acc [[n x] re] Hin. pose proof Hf as Hf'. apply conf_fields in Hf' as (_ & _ & _ & _ & _ & _ & _ & _ & _ & _ & Hsub). rewrite Hsub in Hin. apply in_map_iff in Hin as ([n' x'] & [= <- <- <-] & Hin).
    apply C62_sub_mapping in Hin as [A B]. specialize (G2 n' ltac:(apply in_map_iff; now exists (k ++ u ".sub." ++ n', x')) A).
    assert (C : ok (compiled compiles (option_of m (k ++ u ".sub." ++ n') ".extract-regex"))).
    { destruct (option_of m _ ".extract-regex") as [[|c s]|]; cbn in G2 |- *; try (eexists; reflexivity). rewrite G2. eexists; reflexivity. }
    cbn [fst snd]. match goal with |- ok (bind ?x _) => assert (C' : ok x) by exact C; destruct C' as [re ->] end. cbn [bind].
    destruct (xpath_ok e x') as [found ->]; [do 3 right; left; now exists n'|]. cbn [bind]. apply foldM_ok. intros a p _. rewrite (sub_value_spec Hsp). cbn [bind]. eexists. reflexivity. }
  cbn [bind]. destruct (uses_children sp root f e).
  - destruct (extract_children_ok e f Hf) as [[a b] ->]. cbn [bind]. eexists. reflexivity.
  - cbn [bind]. eexists. reflexivity.
Qed.
End Total.
Theorem C88_total : (forall s, s <> [] -> forallb dg s = true -> parse_int s <> None) -> (forall c, ws4 c = true -> sp c = true) -> forall xm tag m, dict_get tag xm = Some m ->
  (forall k, In k (map fst m) -> plain_name k -> good_options m k /\ good_subs m k /\ forall e x, expression m k x -> ok (xpath e x)) -> ok (T xm tag).
Proof.
  intros Hd Hsp xm tag m Hm Hg. unfold T, xml_targets. match goal with |- ok (match ?x with Some _ => _ | None => _ end) => assert (E : x = Some m) by exact Hm; rewrite E; clear E end. 
  match goal with |- context [mapM ?g ?l] => assert (G : ok (mapM g l)); [apply mapM_ok|destruct G as [ls ->]; cbn [bind]; eexists; reflexivity] end.
  intros k Hk. apply field_names_spec in Hk as [Hk Hp]. destruct (Hg k Hk Hp) as (G1 & G2 & G3). exact (field_ok m k G3 Hd Hsp G1 G2).
Qed.
Theorem C88_needed : forall xm tag, ok (T xm tag) -> exists m, dict_get tag xm = Some m /\ forall k, In k (map fst m) -> plain_name k -> good_options m k.
Proof.
  intros xm tag [l H]. apply targets_inv in H as (m & ls & Hm & HF & _). exists m. split; [exact Hm|]. intros k Hk Hp.
  destruct (F2_in_l _ _ _ HF k) as (es & _ & E); [now apply field_names_spec|]. apply fents_inv in E as (f & _ & _ & Hf & _). apply conf_ok. now exists f.
Qed.
End Targets.

(** An option with several expressions has one per line. *)
Theorem C88_lines : forall (sp : N -> bool) w xs w', xs <> [] -> Forall (fun x => x <> [] /\ ~ In ch_lf x /\ no_outer_space sp x) xs ->
  forallb sp w = true -> forallb sp w' = true ->
  parse_xpaths sp (Some (w ++ join_with ch_lf xs ++ w')) = xs.
Proof.
  intros sp w xs w' Hne Hxs Hw Hw'.
  assert (Hj : join_with ch_lf xs <> [] /\ no_outer_space sp (join_with ch_lf xs)).
  { clear - Hne Hxs. induction Hxs as [|x xs (H1 & H2 & H3) Hxs IH]; [easy|]. cbn [join_with]. destruct xs as [|y xs]; [now split|].
    destruct (IH ltac:(discriminate)) as [I1 I2]. split; [now destruct x|]. destruct (exists_last I1) as (p & d & Ep). intros c s' [E|E].
    - destruct x as [|a x]; [easy|]. injection E as <- _. apply (H3 a x). now left.
    - rewrite Ep in E. assert (E' : (x ++ ch_lf :: p) ++ [d] = s' ++ [c]) by (rewrite <- app_assoc; exact E). apply app_inj_tail in E' as [_ <-].
      apply (I2 d p). now right. }
  destruct Hj as [Hj1 Hj2]. set (j := join_with ch_lf xs) in *.
  assert (L : forall w t, forallb sp w = true -> lstrip sp (w ++ t) = lstrip sp t).
  { clear. induction w as [|c w IH]; intros t H; [reflexivity|]. cbn [forallb] in H. apply andb_true_iff in H as [Hc H]. cbn [app lstrip]. rewrite Hc. now apply IH. }
  assert (L1 : forall t, (forall c t', t = c :: t' -> sp c = false) -> lstrip sp t = t).
  { intros [|c t] Ht; [reflexivity|]. cbn [lstrip]. now rewrite (Ht c t eq_refl). }
  assert (E : strip sp (w ++ j ++ w') = j).
  { unfold strip. rewrite L by exact Hw. destruct j as [|c j'] eqn:Ej; [easy|]. rewrite (L1 ((c :: j') ++ w')) by (intros d t' [= <- _]; apply (Hj2 c j'); now left).
    rewrite rev_app_distr, L by (rewrite forallb_forall in *; intros d Hd; apply Hw'; now apply in_rev). rewrite L1; [apply rev_involutive|].
    intros d t' Ed. apply (Hj2 d (rev t')). right. apply (f_equal (@rev N)) in Ed. rewrite rev_involutive in Ed. exact Ed. }
  unfold parse_xpaths. destruct (w ++ j ++ w') as [|c s] eqn:Es; [destruct w, j; easy|]. rewrite E. unfold j. rewrite split_on_joined; [|exact Hne|].
  - clear - Hxs. induction Hxs as [|x xs (H1 & H2 & H3) Hxs IH]; [reflexivity|]. cbn [map]. rewrite IH. f_equal. now apply strip_id.
  - eapply Forall_impl; [|exact Hxs]. intros x (_ & H & _). exact H.
Qed.

(* ---------------------------------------------------------------- *)
(** ** Examples *)
Definition no_group (p s : str) : option ostr := None.
Definition no_spans (p s : str) : list (Z * Z) := [].
Definition no_json {A} (s : str) : res (list A) := Ok [].
Definition all_content (excluded : list npath) (e : npath) : str := [].
Definition digit_str (z : Z) : str := if (z <? 0)%Z then u "-" else [(48 + Z.to_N (z mod 10))%N].
Definition ex_targets := xml_targets ascii_space ascii_word ascii_digit (fun s => s) (fun _ => true) (fun s => if streq s (u "1") then Some 1%Z else None)
  digit_str no_json no_json no_group no_spans.
Definition leaf_el (text : string) : node := El (u text) [] [].
Definition ex_doc : node :=
  El [] [El [] [leaf_el " About things "; El [] [leaf_el "Smith"; leaf_el "A"] []; El [] [leaf_el "Jones"] []; leaf_el " "] []] [].
Definition ex_find (e : npath) (x : str) : res (list npath) :=
  if streq x (u ".//title") then Ok [[0; 0]; [0; 3]]
  else if streq x (u ".//contrib") then Ok [[0; 1]; [0; 2]]
  else if streq x (u "./surname") then Ok [e ++ [0]]
  else Err ValueError.
Definition ex_section : options :=
  [(u "title", u ".//title"); (u "author", u ".//contrib"); (u "author.bonding", u "true"); (u "author.priority", u "1");
   (u "author.sub.author-surname", u "./surname")].
Example C88_ex : 
  ex_targets ex_find all_content ex_doc [(u "article", ex_section)] (u "article") =
    Ok [mkTgt (u "author") (VOne (u "Smith A")) false true false [(u "author-surname", VOne (u "Smith"))];
        mkTgt (u "author") (VOne (u "Jones")) false true false [(u "author-surname", VOne (u "Jones"))];
        mkTgt (u "title") (VOne (u "About things")) false false false []] /\
  NoDup (map fst ex_section) /\ plain_options ex_section (u "author") /\ no_sub_regex ex_section (u "author") /\
  comes_before [0; 1; 1] [0; 2].
Proof.
  split; [reflexivity|]. split; [repeat constructor; cbn; intuition discriminate|]. split; [intros s H; cbn in H; repeat (destruct H as [<-|H]; [reflexivity|]); destruct H|]. split.
  - intros n H _. cbn in H. repeat (destruct H as [H|H]; [try discriminate H|]); [|destruct H]. assert (E : u "author.sub." ++ u "author-surname" = u "author.sub." ++ n) by exact H.
    apply app_inv_head in E. subst n. reflexivity.
  - right. exists [0], 1, 2, [1], []. repeat split. lia.
Qed.
(** options that can be read, and expressions that find something *)
Example C88_ex_total : forall k, In k (map fst ex_section) -> plain_name k ->
  good_options (fun s => s) (fun _ => true) (fun s => if streq s (u "1") then Some 1%Z else None) no_json no_json ex_section k /\ good_subs (fun _ => true) ex_section k.
Proof.
  intros k Hk Hp. split; [|intros n _ _; destruct (option_of _ _ _) as [[|? ?]|]; reflexivity]. cbn in Hk.
  destruct Hk as [<-|[<-|[<-|[<-|[<-|[]]]]]]; try (exfalso; apply Hp; cbn; tauto); repeat split; try exact I; discriminate.
Qed.
(** With a regular expression, one of several values can be empty, and a sub annotation
    can have several values (see C87_values_refuted). *)
Theorem C88_empty_value_refuted : exists spans find doc xm l t vs,
  xml_targets ascii_space ascii_word ascii_digit (fun s => s) (fun _ => true) (fun _ => None) digit_str no_json no_json no_group spans find all_content doc xm (u "article") = Ok l
  /\ In t l /\ tg_value t = VMany vs /\ In [] vs.
Proof.
  exists (fun _ _ => [(0, 1); (4, 5)]%Z), (fun _ _ => Ok [[0]]), (El [] [leaf_el "1,  2"] []), [(u "article", [(u "number", u "./a"); (u "number.extract-regex", u "(\d)")])].
  eexists. eexists. eexists. split; [vm_compute; reflexivity|]. split; [now left|]. split; [reflexivity|]. cbn. tauto.
Qed.
Theorem C88_sub_values_refuted : exists spans find doc xm l t n vs,
  xml_targets ascii_space ascii_word ascii_digit (fun s => s) (fun _ => true) (fun _ => None) digit_str no_json no_json no_group spans find all_content doc xm (u "article") = Ok l
  /\ In t l /\ In (n, VMany vs) (tg_subs t).
Proof.
  exists (fun _ _ => [(4, 5)]%Z), (fun e _ => Ok [[0]]), (El [] [leaf_el "Fig 1"] []),
    [(u "article", [(u "figure", u "./fig"); (u "figure.sub.figure-label", u "./label"); (u "figure.sub.figure-label.extract-regex", u "(\d)")])].
  eexists. eexists. eexists. eexists. split; [vm_compute; reflexivity|]. split; [now left|]. now left.
Qed.

Print Assumptions C88_positions.
Print Assumptions C88_positions_differ.
Print Assumptions C88_names.
Print Assumptions C88_flags.
Print Assumptions C88_subs.
Print Assumptions C88_plain_subs.
Print Assumptions C88_plain.
Print Assumptions C88_values.
Print Assumptions C88_order.
Print Assumptions C88_total.
Print Assumptions C88_needed.
Print Assumptions C88_lines.
Print Assumptions C88_empty_value_refuted.
Print Assumptions C88_sub_values_refuted.
