(** C139: running the passes that follow the matcher again changes nothing; running the extension to whole lines again does *)
From Verif Require Import Base ModelTags ProofTags ModelTokenize ModelTei ModelTeiDoc SpecTeiWrite SpecTeiDoc ProofTeiDoc PropTeiDoc
  ModelJoined ModelExtend ModelClusters ModelTarget ModelReference ModelSimpleMatch PropSimpleMatch
  ModelExpand PropExpand ModelPostAnnot ModelAnnotators PropShortValues.
Open Scope list_scope.
Open Scope nat_scope.

(* ---------------------------------------------------------------- *)
(** ** Specification *)
(** a second run has no effect *)
Definition settles {A} (f : A -> A) : Prop := forall d, f (f d) = f d.

(* ---------------------------------------------------------------- *)
Section Expand.
Variable sp : N -> bool.
Variable enabled : list str.
Notation prev := (expand_previous sp enabled).
Notation foll := (expand_following sp enabled).
Notation words := (existsb (fun x => negb (is_space sp x))).

Lemma through_two f g d : (forall l, length (f l) = length l) -> through_tokens g (through_tokens f d) = through_tokens (fun l => g (f l)) d.
Proof.
  intros L. unfold through_tokens. destruct (reshape_spec (map (@length tok) d) (f (concat d))) as [R1 R2]; [rewrite L; apply concat_len|].
  now rewrite R1, R2.
Qed.

(** no word without tag comes right before a word whose tag is expanded; [open]: the last word has no tag *)
Fixpoint settled (open : bool) (l : list tok) : Prop :=
  match l with
  | [] => True
  | t :: l' => if is_space sp t then settled open l'
               else match val t with
                    | Some ((_ :: _) as v) => (open = true -> mem v enabled = false) /\ settled false l'
                    | _ => settled true l'
                    end
  end.
Lemma settled_closed l : forall open, settled open l -> settled false l.
Proof.
  induction l as [|t l IH]; intros open; [auto|]. cbn [settled]. destruct (is_space sp t); [apply IH|]. destruct (val t) as [[|a v]|]; [auto| |auto].
  intros [_ H]. split; [discriminate|exact H].
Qed.
Lemma words_last m t : words (m ++ [t]) = words m || negb (is_space sp t).
Proof. rewrite existsb_app. cbn. now rewrite orb_false_r. Qed.
Lemma prev_settled l : forall m, settled (words m) l -> prev m l = m ++ l.
Proof.
  induction l as [|t l IH]; intros m H; cbn [expand_previous]; [now rewrite app_nil_r|]. cbn [settled] in H. rewrite val_eq.
  pose proof (words_last m t) as W. pose proof (IH (m ++ [t])) as I. rewrite W, <- app_assoc in I. cbn [app] in I. destruct (is_space sp t) eqn:Es.
  - rewrite orb_false_r in I. now apply I.
  - rewrite orb_true_r in I. destruct (val t) as [[|a v]|]; [now apply I| |now apply I]. destruct H as [H1 H2].
    pose proof (IH [] H2) as I2. cbn [app] in I2. rewrite I2.
    destruct (words m) eqn:Ew; cbn [negb]; [|reflexivity]. now rewrite (H1 eq_refl).
Qed.
(** the tokens read so far *)
Lemma settled_gap m : Forall (gap_tok sp) m -> forall open l, settled open (m ++ l) <-> settled (open || words m) l.
Proof.
  induction 1 as [|t m G _ IH]; intros open l; cbn [app existsb]; [now rewrite orb_false_r|]. cbn [settled].
  destruct (is_space sp t) eqn:Es; cbn [negb orb]; [apply IH|]. rewrite orb_true_r. destruct G as [G|G]; [congruence|]. unfold PropExpand.untagged in G.
  destruct (val t) as [[|a v]|]; [|discriminate|]; rewrite IH; reflexivity.
Qed.
Lemma settled_tagged v l : v <> [] -> settled false l -> forall m first, settled false (tag_pending sp v first m ++ l).
Proof.
  intros Hv Hl. induction m as [|t m IH]; intros first; [exact Hl|]. cbn [tag_pending]. destruct (is_space sp t) eqn:Es; cbn [app settled].
  - rewrite Es. apply IH.
  - change (is_space sp (set_tag_only LMain _ t)) with (is_space sp t). rewrite Es.
    match goal with |- context [val ?x] => replace (val x) with (Some v) by (destruct v; [congruence|]; destruct first; reflexivity) end.
    destruct v; [congruence|]. split; [discriminate|]. apply IH.
Qed.
Lemma gap_add m t : Forall (gap_tok sp) m -> gap_tok sp t -> Forall (gap_tok sp) (m ++ [t]).
Proof. intros H G. apply Forall_app. split; [exact H|]. constructor; [exact G|constructor]. Qed.
Lemma settled_prev l : forall m, Forall (gap_tok sp) m -> settled false (prev m l).
Proof.
  induction l as [|t l IH]; intros m Hm; cbn [expand_previous].
  - rewrite <- (app_nil_r m). apply settled_gap; [exact Hm|exact I].
  - rewrite val_eq. destruct (is_space sp t) eqn:Es; [apply IH, gap_add; [exact Hm|now left]|].
    destruct (val t) as [[|a v]|] eqn:Ev; [apply IH, gap_add; [exact Hm|right; unfold PropExpand.untagged; now rewrite Ev]| |apply IH, gap_add; [exact Hm|right; unfold PropExpand.untagged; now rewrite Ev]].
    pose proof (IH [] (Forall_nil _)) as I0.
    destruct (words m) eqn:Ew; cbn [negb].
    + destruct (mem (a :: v) enabled) eqn:Em; cbn [negb].
      * apply settled_tagged; [discriminate|]. cbn [settled]. change (is_space sp (set_tag_only LMain _ t)) with (is_space sp t). rewrite Es.
        change (val (set_tag_only LMain (add_tag_prefix (Some (a :: v)) (Some (u "i-"))) t)) with (Some (a :: v)). cbv iota. split; [discriminate|exact I0].
      * apply settled_gap; [exact Hm|]. rewrite Ew. cbn [orb settled]. rewrite Es, Ev. split; [intros _; exact Em|exact I0].
    + apply settled_gap; [exact Hm|]. rewrite Ew. cbn [orb settled]. rewrite Es, Ev. split; [discriminate|exact I0].
Qed.
(** the tag that is expanded to what follows *)
Definition carried (p : ostr) : Prop := match p with None => True | Some v => v <> [] /\ mem v enabled = true end.
Lemma settled_foll l : forall open p, carried p -> settled open l -> (open = true -> p = None) -> settled open (foll p l).
Proof.
  induction l as [|t l IH]; intros open p Hc H Hp; [exact I|]. cbn [expand_following]. cbn [settled] in H. rewrite val_eq. destruct (is_space sp t) eqn:Es.
  - cbn [settled]. rewrite Es. now apply IH.
  - assert (G : match val t with Some (_ :: _) => False | _ => True end -> settled true l ->
      settled open match p with None | Some [] => t :: foll p l | Some v => set_tag_only LMain (add_tag_prefix (Some v) (Some (u "i-"))) t :: foll p l end).
    { intros Hv Hs. destruct p as [[|a v]|]; [destruct Hc as [Hc _]; congruence| |].
      - cbn [settled]. change (is_space sp (set_tag_only LMain _ t)) with (is_space sp t). rewrite Es.
        match goal with |- context [val ?x] => change (val x) with (Some (a :: v)) end. cbv iota. split; [intros Ho; discriminate (Hp Ho)|].
        apply IH; [exact Hc|now apply (settled_closed l true)|discriminate].
      - cbn [settled]. rewrite Es. destruct (val t) as [[|b w]|]; [|contradiction|]; apply IH; auto. }
    destruct (val t) as [[|a v]|] eqn:Ev; [now apply G| |now apply G]. cbn [settled]. rewrite Es, Ev. destruct H as [H1 H2]. split; [exact H1|].
    apply IH; [|exact H2|discriminate]. destruct (mem (a :: v) enabled) eqn:Em; [|exact I]. split; [discriminate|exact Em].
Qed.
Lemma foll_again l : forall p, carried p -> foll p (foll p l) = foll p l.
Proof.
  induction l as [|t l IH]; intros p Hc; [reflexivity|]. cbn [expand_following]. rewrite !val_eq. destruct (is_space sp t) eqn:Es.
  - cbn [expand_following]. rewrite Es. now rewrite IH.
  - assert (G : match val t with Some (_ :: _) => False | _ => True end ->
      let r := match p with None | Some [] => t :: foll p l | Some v => set_tag_only LMain (add_tag_prefix (Some v) (Some (u "i-"))) t :: foll p l end in foll p r = r).
    { intros Hv. cbv zeta. destruct p as [[|a v]|]; [destruct Hc as [Hc _]; congruence| |].
      - cbn [expand_following]. change (is_space sp (set_tag_only LMain _ t)) with (is_space sp t). rewrite Es, val_eq.
        match goal with |- context [val ?x] => change (val x) with (Some (a :: v)) end. cbv iota. destruct Hc as [Hc1 Hc2]. rewrite Hc2. rewrite IH; [reflexivity|split; assumption].
      - cbn [expand_following]. rewrite Es, val_eq. destruct (val t) as [[|b w]|]; [|contradiction|]; now rewrite IH. }
    destruct (val t) as [[|a v]|] eqn:Ev; [now apply G| |now apply G]. cbn [expand_following]. rewrite Es, val_eq, Ev. rewrite IH; [reflexivity|].
    destruct (mem (a :: v) enabled) eqn:Em; [|exact I]. split; [discriminate|exact Em].
Qed.
Lemma prev_len l : length (prev [] l) = length l.
Proof. rewrite (previous_each sp enabled l [] []) by (constructor || reflexivity). apply each_length. Qed.
Lemma foll_len l : length (foll None l) = length l.
Proof. rewrite (following_each sp enabled l [] : foll None l = _). apply each_length. Qed.
Lemma through_ext f g d : (forall l, f l = g l) -> through_tokens f d = through_tokens g d.
Proof. intros H. unfold through_tokens. now rewrite H. Qed.

(** The expansions settle, each and both one after the other. *)
Theorem C139_previous : settles (annotate_previous sp enabled).
Proof.
  intros d. unfold annotate_previous. rewrite (through_two _ _ _ prev_len). apply through_ext. intros l.
  rewrite prev_settled; [reflexivity|]. apply settled_prev. constructor.
Qed.
Theorem C139_following : settles (annotate_following sp enabled).
Proof. intros d. unfold annotate_following. rewrite (through_two _ _ _ foll_len). apply through_ext. intros l. now apply foll_again. Qed.
Theorem C139_both : settles (fun d => annotate_following sp enabled (annotate_previous sp enabled d)).
Proof.
  intros d. unfold annotate_following, annotate_previous. rewrite (through_two _ _ d prev_len).
  assert (L : forall l, length (foll None (prev [] l)) = length l) by (intros l; now rewrite foll_len, prev_len).
  rewrite (through_two _ _ d L), (through_two (fun l => prev [] (foll None (prev [] l)))) by (intros l; now rewrite prev_len, L).
  apply through_ext. intros l. rewrite prev_settled; [now apply foll_again|]. apply settled_foll; [exact I| |discriminate]. apply settled_prev. constructor.
Qed.
End Expand.

(* ---------------------------------------------------------------- *)
(** ** Groups *)
Section Groups.
Variable sp : N -> bool.
Variable group : str -> ostr.
Variable lv : level.
Notation step := (merge_group_step sp group lv).
Definition relates (s1 s2 : ostr) : Prop := truthy s1 = false -> truthy s2 = false.
Definition skipped (t : tok) : bool := is_space sp t || match lv with LMain => false | LSub => negb (truthy (tag_or_preserved LMain t)) end.
Lemma step_eq s t : step s t = if skipped t then (s, t) else match tag_or_preserved_value lv t with
    | Some ((_ :: _) as v) => (group v, t)
    | _ => if truthy s then (s, set_tag_only lv (add_tag_prefix s (Some I_PREFIX)) t) else (s, t) end.
Proof. unfold merge_group_step, skipped. destruct (is_space sp t); [reflexivity|]. cbn [orb]. destruct lv; [|destruct (negb _)]; reflexivity. Qed.
Lemma step_again s1 s2 t : relates s1 s2 -> relates (fst (step s1 t)) (fst (step s2 (snd (step s1 t)))) /\ snd (step s2 (snd (step s1 t))) = snd (step s1 t).
Proof.
  intros R. rewrite (step_eq s1 t). destruct (skipped t) eqn:K; cbn [fst snd]; [rewrite step_eq, K; cbn [fst snd]; auto|].
  assert (G : match tag_or_preserved_value lv t with Some (_ :: _) => False | _ => True end ->
    let r := if truthy s1 then (s1, set_tag_only lv (add_tag_prefix s1 (Some I_PREFIX)) t) else (s1, t) in
    relates (fst r) (fst (step s2 (snd r))) /\ snd (step s2 (snd r)) = snd r).
  { intros Hv. cbv zeta. destruct (truthy s1) eqn:T; cbn [fst snd].
    - split; [unfold relates; congruence|]. rewrite step_eq. destruct (skipped (set_tag_only _ _ t)); [reflexivity|].
      destruct s1 as [[|a v]|]; try discriminate. assert (V : tag_or_preserved_value lv (set_tag_only lv (add_tag_prefix (Some (a :: v)) (Some I_PREFIX)) t) = Some (a :: v)) by (destruct lv; reflexivity).
      match goal with |- context [tag_or_preserved_value lv ?x] => change x with (set_tag_only lv (add_tag_prefix (Some (a :: v)) (Some I_PREFIX)) t) end. rewrite V. reflexivity.
    - rewrite step_eq, K, (R T). destruct (tag_or_preserved_value lv t) as [[|b w]|]; [|contradiction|]; cbn [fst snd]; auto. }
  destruct (tag_or_preserved_value lv t) as [[|a v]|] eqn:Ev; [now apply G| |now apply G]. cbn [fst snd]. rewrite step_eq, K, Ev. cbn [fst snd]. split; [unfold relates; auto|reflexivity].
Qed.
Lemma map_again {A} (f : ostr -> A -> ostr * A) :
  (forall s1 s2 t, relates s1 s2 -> relates (fst (f s1 t)) (fst (f s2 (snd (f s1 t)))) /\ snd (f s2 (snd (f s1 t))) = snd (f s1 t)) ->
  forall l s1 s2, relates s1 s2 -> relates (fst (map_state f s1 l)) (fst (map_state f s2 (snd (map_state f s1 l)))) /\
    snd (map_state f s2 (snd (map_state f s1 l))) = snd (map_state f s1 l).
Proof.
  intros Hf. induction l as [|t l IH]; intros s1 s2 R; [split; [exact R|reflexivity]|]. cbn [map_state]. specialize (Hf s1 s2 t R).
  destruct (f s1 t) as [x1 t1] eqn:E1. cbn [fst snd] in Hf. destruct Hf as [H1 H2].
  specialize (IH x1). destruct (map_state f x1 l) as [y1 l1] eqn:E2. cbn [fst snd map_state].
  destruct (f s2 t1) as [x2 t2] eqn:E3. cbn [fst snd] in H1, H2. subst t2. destruct (IH x2 H1) as [I1 I2]. cbn [fst snd] in I1, I2.
  destruct (map_state f x2 l1) as [y2 l2] eqn:E4. cbn [fst snd] in *. subst l2. split; [exact I1|reflexivity].
Qed.
(** Merging groups settles, whatever the groups are. *)
Theorem C139_groups : settles (merge_group sp group lv).
Proof.
  intros d. unfold merge_group. apply (map_again (map_state step)); [|unfold relates; auto]. intros s1 s2 l R. apply map_again; [exact step_again|exact R].
Qed.
End Groups.

(* ---------------------------------------------------------------- *)
(** ** Extension to whole lines *)
Definition ex_again_config : config := mkConfig 200 2 5 true true false false [].
Definition ex_again_libs : libs := ex_short_libs.
Definition ex_again_doc : doc := [[word "p" None; word "q" None; word "alpha" (Some (u "b-k")); word "r" None; word "beta" (Some (u "b-k"))]].
Definition again (d : doc) : res doc := annotate_one ex_again_libs (ASimple ex_again_config 1 []) d.
(** A second run of the simple matcher without target annotations, which only extends tags, may give further tags: the first run joins
    two parts of a line, the second finds that most of the line has the tag. *)
Theorem C139_lines_refuted : exists c d d1 d2 t, cf_extend c = true /\
  annotate_one ex_again_libs (ASimple c 1 []) d = Ok d1 /\ annotate_one ex_again_libs (ASimple c 1 []) d1 = Ok d2 /\
  tok_at d1 (0, 0) = Some t /\ tag t = None /\ d2 <> d1.
Proof.
  exists ex_again_config, ex_again_doc. do 3 eexists. split; [reflexivity|]. split; [vm_compute; reflexivity|]. split; [vm_compute; reflexivity|].
  split; [vm_compute; reflexivity|]. split; [reflexivity|discriminate].
Qed.

(** Nor does the removal of untagged words settle: its lines are one and the same list, so each run makes the document longer. *)
Theorem C139_removal_refuted : exists d, let f := remove_all_untagged ascii_space in
  length (concat d) = 2 /\ length (concat (f d)) = 4 /\ length (concat (f (f d))) = 8.
Proof. exists [[word "a" (Some (u "b-k"))]; [word "b" (Some (u "i-k"))]]. vm_compute. auto. Qed.

(* ---------------------------------------------------------------- *)
(** ** Examples *)
Definition ex_pass_doc : doc := [[word "a" None; word "b" (Some (u "b-table"))]; [word "c" None]; [word "d" (Some (u "b-figure")); word "e" None]].
Example C139_expand_ex :
  let f := annotate_previous ascii_space [u "figure"] in let g := annotate_following ascii_space [u "figure"] in
  map (map tag) (f ex_pass_doc) = [[None; Some (u "b-table")]; [Some (u "b-figure")]; [Some (u "i-figure"); None]] /\
  map (map tag) (g ex_pass_doc) = [[None; Some (u "b-table")]; [None]; [Some (u "b-figure"); Some (u "i-figure")]] /\
  map (map tag) (g (f ex_pass_doc)) = [[None; Some (u "b-table")]; [Some (u "b-figure")]; [Some (u "i-figure"); Some (u "i-figure")]].
Proof. cbv zeta. repeat split; vm_compute; reflexivity. Qed.
(** a group with another name: a second run meets the name of the group, for which there is none *)
Example C139_groups_ex :
  let f := merge_group ascii_space (fun t => dict_get t [(u "table", u "tables")]) LMain in
  map (map tag) (f ex_pass_doc) = [[None; Some (u "b-table")]; [Some (u "i-tables")]; [Some (u "b-figure"); None]] /\ f (f ex_pass_doc) = f ex_pass_doc.
Proof. cbv zeta. split; [vm_compute; reflexivity|apply C139_groups]. Qed.

Print Assumptions C139_previous.
Print Assumptions C139_following.
Print Assumptions C139_both.
Print Assumptions C139_groups.
Print Assumptions C139_lines_refuted.
Print Assumptions C139_removal_refuted.
