(** C138: the settings built into the commands: the shortest value that is searched, the tags expanded in
    full texts, the commands with sub fields *)
From Verif Require Import Base ModelTags ProofTags ModelTokenize ModelTei ModelTeiDoc SpecTeiWrite SpecTeiDoc ProofTeiDoc ProofTeiWrite PropTeiDoc
  ModelJoined PropJoined ModelExtend ModelClusters ModelTarget ModelReference PropReferenceDoc ModelSimpleMatch PropSimpleMatch
  ModelExpand PropExpand ModelAnnotators ModelMapping PropMapping ModelCommands ModelFuzzyMatch ModelWordMatch ModelFuzzySearch ModelDifflib PropFuzzyMatch PropFuzzySearch
  PropDifflib PropShortValues ModelLineNumbers ModelMatch ModelSegmentation.
Open Scope list_scope.
Open Scope nat_scope.

(* ---------------------------------------------------------------- *)
(** ** Specification *)
(** the options without the two expansions *)
Definition not_expanding (o : cmd_options) : cmd_options :=
  mkOpts (o_fields o) (o_sub_fields o) (o_overrides o) (o_no_preserve_tags o) (o_always o) (o_no_preserve_fields o) (o_preserve_sub o)
    (o_no_preserve_sub o) (o_simple o) (o_lookahead o) (o_line_numbers o) (o_line_cli o) (o_segment o) (o_remove o) (o_no_extend o)
    false false (o_idno_prefix o) (o_no_merge_references o).
Definition figure_or_table (v : str) : Prop := v = u "figure" \/ v = u "table".
(** the token at the place, counted through all lines *)
Definition tok_no (d : doc) (n : nat) : option tok := nth_error (concat d) n.

(* ---------------------------------------------------------------- *)
(** ** Short values *)
Section Short.
Variable lsm : str -> str -> list block.
Variable th : Q.
Variable b : libs.
Hypothesis Hth : (0 < th <= 1)%Q.
Hypothesis Hcl : classes_ok b.
Let libs_ := with_searches lsm difflib_blocks th b.
Notation norm := (normalise_str (lb_lower b)).
Notation found_in c o i ps ext := (matching_chunks (lb_sp b) (lb_wd b) (lb_lower b) (lb_chunks libs_) (simple_config c o i ps ext)).

(** No command searches values of one character; *)
Theorem C138_one c o i ps ext h v mc : length v < 2 -> found_in c o i ps ext h v mc = Ok None.
Proof. intros H. unfold matching_chunks. replace (Nat.ltb _ _) with true; [reflexivity|]. symmetry. apply Nat.ltb_lt. cbn. lia. Qed.
(** every command finds a word of two characters at the first place where it is a whole word, and nowhere else. *)
Theorem C138_two c o i ps ext h v mc : length v = 2 -> norm v <> [] -> Forall (fun e => lb_wd b e = true) (norm v) -> length (norm v) < 5 ->
  (forall x y, first_place h (norm v) x y -> found_in c o i ps ext h v mc = Ok (Some [(slen x, slen x + slen (norm v))%Z])) /\
  ((forall x y, ~ whole_words seps h x (norm v) y) -> found_in c o i ps ext h v mc = Ok None).
Proof.
  intros H2 Hn Hw Hl. assert (S : short_word b (simple_config c o i ps ext) v) by (repeat split; try assumption; cbn; lia). split.
  - intros x y F. now apply C108_match with (y := y).
  - intros N. now apply C108_no_match.
Qed.
End Short.

(* ---------------------------------------------------------------- *)
(** ** Expansion *)
Section Expansion.
Variable b : libs.
Notation sp := (lb_sp b).
Notation tags := expand_tags.

Definition expanded (o : cmd_options) (d : doc) : doc :=
  let d1 := if o_previous o then annotate_previous sp tags d else d in if o_following o then annotate_following sp tags d1 else d1.
Lemma fulltext_split o i d d' : annotate_all b (command_annotators CFulltext o i) d = Ok d' ->
  exists d0, annotate_all b (command_annotators CFulltext (not_expanding o) i) d = Ok d0 /\ d' = expanded o d0.
Proof.
  unfold annotate_all, command_annotators, not_expanding. cbn [o_previous o_following opt_list]. rewrite foldM_app.
  match goal with |- bind (foldM ?f ?a ?l) _ = _ -> _ => destruct (foldM f a l) as [d0|e] eqn:E end; [|discriminate]. cbn [bind]. intros H. exists d0. split.
  - cbn [app]. exact E.
  - unfold expanded. destruct (o_previous o), (o_following o); cbn in H; now inversion H.
Qed.
Lemma tok_split d n t : tok_no d n = Some t -> exists x y, concat d = x ++ t :: y /\ length x = n.
Proof. intros H. apply nth_error_split in H as (x & y & E & L). eauto. Qed.
Lemma tags_spec v : is_enabled tags v = true -> exists w, v = Some w /\ figure_or_table w.
Proof.
  destruct v as [[|a w]|]; try discriminate. cbn [is_enabled]. intros H. apply mem_In in H. exists (a :: w). split; [reflexivity|].
  destruct H as [<-|[<-|[]]]; [now left|now right].
Qed.
Lemma in_tags_ v : figure_or_table v -> In v tags /\ v <> [].
Proof. intros [-> | ->]; (split; [cbn; tauto|discriminate]). Qed.
(** what one pass may do to a token *)
Definition may_become (t t' : tok) : Prop :=
  same_text t t' /\ (truthy (val t) = true -> val t' = val t) /\
  (val t' <> val t -> is_space sp t = false /\ truthy (val t) = false /\ exists v, val t' = Some v /\ figure_or_table v).
Lemma may_refl t : may_become t t.
Proof. split; [split; reflexivity|]. split; [reflexivity|congruence]. Qed.
Lemma pass_may f d n t : passes sp tags f -> tok_no d n = Some t -> exists t', tok_no (f d) n = Some t' /\ may_become t t'.
Proof.
  intros Hf H. apply tok_split in H as (x & y & E & <-). destruct (C19_values sp tags f d x t y Hf E) as (t' & E' & S & K & V). exists t'. split; [exact E'|].
  split; [exact S|]. split; [exact K|]. intros N. destruct (V N) as (U & Hs & He & _). split; [exact Hs|]. split; [exact U|]. now apply tags_spec.
Qed.
Lemma may_trans t t1 t2 : is_space sp t1 = is_space sp t -> may_become t t1 -> may_become t1 t2 -> may_become t t2.
Proof.
  intros Hsp (S1 & K1 & V1) (S2 & K2 & V2). split; [destruct S1, S2; split; congruence|]. split.
  - intros T. rewrite K2; [now apply K1|]. now rewrite K1.
  - intros N. destruct (truthy (val t)) eqn:T; [exfalso; apply N; rewrite K2; [now apply K1|now rewrite (K1 eq_refl)]|].
    destruct (truthy (val t1)) eqn:T1.
    + rewrite (K2 eq_refl) in N |- *. destruct (V1 N) as (A & _ & B). auto.
    + assert (D : val t2 = val t1 \/ val t2 <> val t1) by (destruct (val t2) as [x|], (val t1) as [y|]; try (now left); try (right; discriminate); destruct (list_eq_dec N.eq_dec x y); [left; congruence|right; congruence]).
      destruct D as [D|D]; [rewrite D in N |- *; destruct (V1 N) as (A & _ & B); auto|]. destruct (V2 D) as (A & _ & B). rewrite Hsp in A. auto.
Qed.

(** With the full text command the expansions give tags to words without tag only, and these are those of figures and tables. *)
Theorem C138_expanded o i d d' : annotate_all b (command_annotators CFulltext o i) d = Ok d' ->
  exists d0, annotate_all b (command_annotators CFulltext (not_expanding o) i) d = Ok d0 /\
  forall n t, tok_no d0 n = Some t -> exists t', tok_no d' n = Some t' /\ same_text t t' /\ (truthy (val t) = true -> val t' = val t) /\
    (val t' <> val t -> is_space sp t = false /\ truthy (val t) = false /\ exists v, val t' = Some v /\ figure_or_table v).
Proof.
  intros H. destruct (fulltext_split o i d d' H) as (d0 & E & ->). exists d0. split; [exact E|]. intros n t Ht. unfold expanded. cbv zeta.
  assert (G : exists t1, tok_no (if o_previous o then annotate_previous sp tags d0 else d0) n = Some t1 /\ may_become t t1).
  { destruct (o_previous o); [apply pass_may; [now left|exact Ht]|]. exists t. split; [exact Ht|apply may_refl]. }
  destruct G as (t1 & E1 & M1). destruct (o_following o); [|exists t1; split; [exact E1|exact M1]].
  destruct (pass_may (annotate_following sp tags) _ n t1 ltac:(now right) E1) as (t2 & E2 & M2). exists t2. split; [exact E2|].
  apply (may_trans t t1 t2); [|exact M1|exact M2]. destruct M1 as ((S & _) & _). unfold is_space. now rewrite S.
Qed.
(** Every word without tag before a figure or table is made part of it, *)
Theorem C138_previous o i d d' : o_previous o = true -> annotate_all b (command_annotators CFulltext o i) d = Ok d' ->
  exists d0, annotate_all b (command_annotators CFulltext (not_expanding o) i) d = Ok d0 /\
  forall x m w y v k t, concat d0 = x ++ m ++ w :: y -> Forall (gap_tok sp) m -> is_space sp w = false -> val w = Some v -> figure_or_table v ->
    nth_error m k = Some t -> is_space sp t = false -> exists t', tok_no d' (length x + k) = Some t' /\ val t' = Some v.
Proof.
  intros Hp H. destruct (fulltext_split o i d d' H) as (d0 & E & ->). exists d0. split; [exact E|]. intros x m w y v k t Ed Hm Hw Hv Hf Hk Ht.
  apply in_tags_ in Hf as [Hi Hne]. destruct (C19_previous_no_hole sp tags d0 x m w y v Ed Hm Hw Hv Hne Hi k t Hk Ht) as (t1 & E1 & V1).
  unfold expanded. rewrite Hp. cbv zeta. destruct (o_following o); [|exists t1; split; [exact E1|exact V1]].
  destruct (pass_may (annotate_following sp tags) _ _ t1 ltac:(now right) E1) as (t2 & E2 & (_ & K & _)). exists t2. split; [exact E2|].
  rewrite K; [exact V1|]. rewrite V1. destruct v; [congruence|reflexivity].
Qed.
(** and so is every one after it, if only that is asked for. *)
Theorem C138_following o i d d' : o_previous o = false -> o_following o = true -> annotate_all b (command_annotators CFulltext o i) d = Ok d' ->
  exists d0, annotate_all b (command_annotators CFulltext (not_expanding o) i) d = Ok d0 /\
  forall x m w y v k t, concat d0 = x ++ w :: m ++ y -> Forall (gap_tok sp) m -> is_space sp w = false -> val w = Some v -> figure_or_table v ->
    nth_error m k = Some t -> is_space sp t = false -> exists t', tok_no d' (length x + 1 + k) = Some t' /\ val t' = Some v.
Proof.
  intros Hp Hfo H. destruct (fulltext_split o i d d' H) as (d0 & E & ->). exists d0. split; [exact E|]. intros x m w y v k t Ed Hm Hw Hv Hf Hk Ht.
  apply in_tags_ in Hf as [Hi Hne]. unfold expanded. rewrite Hp, Hfo. exact (C19_following_no_hole sp tags d0 x m w y v Ed Hm Hw Hv Hne Hi k t Hk Ht).
Qed.
End Expansion.

(* ---------------------------------------------------------------- *)
(** ** Sub fields *)
Definition has_sub_fields (c : command) : Prop := In c [CFulltext; CFigure; CTable; CAffiliation].
(** The selection of sub fields reduces the mapping for these commands, *)
Theorem C138_sub_fields c xm o : has_sub_fields c -> o_fields o = [] -> o_overrides o = [] -> o_sub_fields o <> [] ->
  reduced_mapping (fun key => forall rest, sub_option key rest -> rest <> [] -> In rest (o_sub_fields o)) xm (fst (command_fields c xm o)).
Proof.
  intros Hc Hf Ho Hs. unfold command_fields. rewrite Hf, Ho. cbn [mapping_with_overrides].
  assert (E : match c with CFulltext | CFigure | CTable | CAffiliation => o_sub_fields o | _ => [] end = o_sub_fields o)
    by (destruct Hc as [<-|[<-|[<-|[<-|[]]]]]; reflexivity).
  rewrite E. now apply C37_sub_fields.
Qed.
(** and has no effect on the others. *)
Theorem C138_no_sub_fields c xm o : ~ has_sub_fields c -> o_fields o = [] -> o_overrides o = [] -> fst (command_fields c xm o) = xm.
Proof.
  intros Hc Hf Ho. unfold command_fields. rewrite Hf, Ho. cbn [mapping_with_overrides].
  destruct c; try reflexivity; exfalso; apply Hc; unfold has_sub_fields; cbn; tauto.
Qed.

(* ---------------------------------------------------------------- *)
(** ** Examples *)
Definition ex_set_opts (previous following : bool) : cmd_options :=
  mkOpts [] [u "institution"] [] false [] [] false [] true 200 false (mkCli 2 3 None) false false true previous following false false.
Definition ex_set_inputs : inputs :=
  mkInputs [] [] [] (mkSegConfig [] 0 0 false) (fun _ _ => false) DEFAULT_SEQ_FILTER DEFAULT_CHOICE_FILTER DEFAULT_MAX_MATCH_GAP 1.
Definition ex_set_doc : doc :=
  [[word "Intro" (Some (u "b-section_title"))]; [word "1" None; word "cm" None]; [word "Figure" (Some (u "b-figure"))]; [word "x" None];
   [word "Table" (Some (u "b-table"))]; [word "y" None]].
Definition ex_set_tags (previous following : bool) : res (list (list ostr)) :=
  do d <- annotate_all ex_short_libs (command_annotators CFulltext (ex_set_opts previous following) ex_set_inputs) ex_set_doc ;; Ok (map (map tag) d).
Example C138_expanded_ex :
  ex_set_tags true false =
    Ok [[Some (u "b-section_title")]; [Some (u "b-figure"); Some (u "i-figure")]; [Some (u "i-figure")]; [Some (u "b-table")]; [Some (u "i-table")]; [None]] /\
  ex_set_tags false true =
    Ok [[Some (u "b-section_title")]; [None; None]; [Some (u "b-figure")]; [Some (u "i-figure")]; [Some (u "b-table")]; [Some (u "i-table")]].
Proof. split; vm_compute; reflexivity. Qed.
Example C138_two_ex : exists x y, first_place (u "the ph is") (normalise_str lower_ascii (u "pH")) x y /\ length (u "pH") = 2 /\ Forall (fun e => ascii_word e = true) (normalise_str lower_ascii (u "pH")) /\ classes_ok ex_short_libs.
Proof.
  exists (u "the "), (u " is"). split; [|split; [reflexivity|split; [vm_compute; repeat constructor|apply ex_classes]]].
  apply (PropShortValues.first_tokens _ (u "ph") [u "the"; u " "] [u " "; u "is"]); [discriminate|repeat constructor|vm_compute; reflexivity|].
  intros H. repeat destruct H as [H|H]; try discriminate. destruct H.
Qed.
Example C138_sub_fields_ex :
  let xm := [(u "article", [(u "author_aff", u "aff"); (u "author_aff.sub.institution", u "institution"); (u "author_aff.sub.country", u "country")])] in
  fst (command_fields CAffiliation xm (ex_set_opts false false)) = [(u "article", [(u "author_aff", u "aff"); (u "author_aff.sub.institution", u "institution")])] /\ fst (command_fields CHeader xm (ex_set_opts false false)) = xm.
Proof. split; vm_compute; reflexivity. Qed.

Print Assumptions C138_one.
Print Assumptions C138_two.
Print Assumptions C138_expanded.
Print Assumptions C138_previous.
Print Assumptions C138_following.
Print Assumptions C138_sub_fields.
Print Assumptions C138_no_sub_fields.
