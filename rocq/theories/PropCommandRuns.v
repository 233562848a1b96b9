(** C81, C82: what the commands keep *)
From Verif Require Import Base ModelTags ProofTags ModelTokenize ModelXml ModelTei ModelTeiDoc SpecTeiRead SpecTeiWrite SpecTeiDoc ProofTeiDoc PropTeiDoc PropTeiRead PropTokenize
  ModelMapping ModelTarget ModelFuzzyMatch ModelWordMatch ModelPostAnnot PropPostAnnot ModelLineNumbers ModelExpand ModelSegmentation ModelReference
  ModelSimpleMatch PropSimpleMatch ModelMatch ModelAnnotators PropAnnotators ModelCommands PropSaves.
Open Scope list_scope.
Open Scope nat_scope.

(* ---------------------------------------------------------------- *)
(** ** Specification *)
(** the only options to leave out words *)
Definition may_remove (c : command) (o : cmd_options) : bool :=
  match c with CReference | CAffiliation => o_remove o | _ => false end.

Lemma commands_remove c o i : forallb (fun a => negb (removes a)) (command_annotators c o i) = negb (may_remove c o).
Proof.
  assert (D : forall c, forallb (fun a => negb (removes a)) (default_annotators c o i) = true).
  { intros c'. unfold default_annotators, opt_list. rewrite forallb_app. destruct (o_line_numbers o), (o_simple o); reflexivity. }
  assert (S : forall c p, negb (removes (sub_tag_annotators c o i p)) = true).
  { intros c' p. unfold sub_tag_annotators. cbv zeta. destruct (o_segment o); reflexivity. }
  destruct c; cbn [command_annotators may_remove negb].
  - apply D.
  - rewrite forallb_app, D. reflexivity.
  - unfold opt_list. rewrite !forallb_app. destruct (o_previous o), (o_following o); reflexivity.
  - cbn [forallb]. now rewrite S.
  - cbn [forallb]. now rewrite S.
  - cbn [app forallb]. rewrite S. unfold opt_list. now destruct (o_remove o).
  - apply D.
  - cbn [app forallb]. rewrite S, forallb_app. unfold opt_list. now destruct (o_remove o).
Qed.
(** Saved text is the text of the source, whatever the options (but that for removal). *)
Theorem C81_text : forall c b up lo node_ok xm o i root root' e,
  may_remove c o = false -> named root = true -> find_all (container c) root = [e] ->
  command_tree c b up lo node_ok xm o i root = Ok root' -> full_text root' = full_text root.
Proof.
  intros c b up lo node_ok xm o i root root' e Hr Hn He H.
  eapply C11_saved; [|exact Hn|exact He| |exact H]; [now destruct c|]. now rewrite commands_remove, Hr.
Qed.

(* ---------------------------------------------------------------- *)
(** ** Annotators of sub tags *)
Definition main_same (t t' : tok) : Prop := tag t' = tag t /\ ptag t' = ptag t.
Lemma main_refl d : doc_rel main_same d d.
Proof. apply doc_rel_refl. now split. Qed.
Lemma main_trans d1 d2 d3 : doc_rel main_same d1 d2 -> doc_rel main_same d2 d3 -> doc_rel main_same d1 d3.
Proof. apply doc_rel_trans. intros a b c [H1 H2] [H3 H4]. split; congruence. Qed.
Lemma layout_none d d' q : same_layout d d' -> tok_at d q = None -> tok_at d' q = None.
Proof.
  intros L. unfold tok_at. generalize (fst q) as k. induction L as [|l l' ds ds' Hl HL IH]; intros [|k]; cbn [nth_error]; auto.
  clear -Hl. generalize (snd q) as j. induction Hl as [|x y l l' Hx HF IH]; intros [|j]; cbn [nth_error]; auto. discriminate.
Qed.
Lemma set_sub_main sp p v d : doc_rel main_same d (set_tag sp LSub p v d).
Proof.
  intros q. destruct (tok_at d q) as [t|] eqn:E; [|now apply tok_at_set_none].
  destruct (set_any sp LSub p v d q t E) as (t' & E' & S & G & P). exists t'. repeat split; auto; try apply S. apply (G LMain).
Qed.
Lemma references_main search regexes sp c d d' : annotate_references search regexes sp c d = Ok d' -> doc_rel main_same d d'.
Proof.
  unfold annotate_references. intros H. eapply (foldM_inv (fun x => doc_rel main_same d x)); [|apply main_refl|exact H].
  intros d1 g d2 _ H1 H2. eapply (foldM_inv (fun x => doc_rel main_same d x)); [|exact H1|exact H2].
  intros d3 f d4 _ H3 H4. unfold ref_step in H4. destruct (f _) as [ts|]; [|discriminate]. injection H4 as <-. unfold set_sub_tags.
  revert d3 H3. induction (combine (snd g) ts) as [|[p v] l IH]; intros d3 H3; [exact H3|]. cbn [fold_left fst snd]. apply IH.
  destruct (truthy v); [|exact H3]. eapply main_trans; [exact H3|apply set_sub_main].
Qed.
Lemma merge_sub_main sp group d : doc_rel main_same d (merge_group sp group LSub d).
Proof.
  intros [i j]. rewrite C20_pointwise. destruct (tok_at d (i, j)) as [t|]; [|reflexivity]. cbn [option_map]. eexists. split; [reflexivity|].
  unfold merged. destruct (_ && _); [|repeat split]. destruct (group_before _ _ _ _) as [[|]|]; repeat split.
Qed.
Lemma stays_only p fields f t : (if stays p fields [f] (value (shown LMain t)) then shown LMain t else None)
  = if ostreq (value (shown LMain t)) (Some f) then shown LMain t else None.
Proof.
  unfold stays. cbn [nonempty]. rewrite orb_true_r. destruct (value (shown LMain t)) as [v|] eqn:E.
  - cbn [mem existsb negb]. rewrite andb_false_r, !orb_false_r.
    destruct (streq v f) eqn:Es; [apply streq_true in Es; subst; now rewrite (proj2 (ostreq_true _ _))|].
    destruct (ostreq (Some v) (Some f)) eqn:Eo; [|reflexivity]. apply ostreq_true in Eo. injection Eo as ->. now rewrite streq_refl in Es.
  - rewrite (proj2 (ostreq_false _ _)) by discriminate. unfold value, split_tag_prefix in E. destruct (shown LMain t) as [[|? ?]|]; try reflexivity; try discriminate.
    destruct (starts_with _ _); [discriminate|]. destruct (starts_with _ _); discriminate.
Qed.
(** Without segmenting, a word keeps the main tag it was loaded with if this is the tag of
    the command, and has none otherwise. *)
Theorem C82_main_tags : forall c b up lo xm o i root d d' f,
  segmented_field c = Some f -> o_segment o = false -> may_remove c o = false ->
  load_document (lb_sp b) (lb_wd b) up lo (command_mapping (lb_wd b) c (snd (command_fields c xm o))) true (container c) root = Ok d ->
  command_document c b up lo xm o i root = Ok d' ->
  doc_rel (fun t t' => shown LMain t' = if ostreq (value (shown LMain t)) (Some f) then shown LMain t else None) d d'.
Proof.
  intros c b up lo xm o i root d d' f Hf Hs Hr Hd H. unfold command_document, annotated_document in H. rewrite Hd in H. cbn [bind] in H.
  set (opts := command_options c o) in H.
  set (d1 := prepare_document (lb_sp b) (ao_always opts) (ao_preserve opts) (ao_fields opts) (ao_preserve_sub opts) (ao_no_sub opts) d) in H.
  assert (Ho1 : ao_always opts = [f]) by (unfold opts, command_options, always_fields; cbn [ao_always]; now rewrite Hf, Hs).
  (* loaded and prepared *)
  assert (P : doc_rel (fun t t' => ptag t' = if ostreq (value (shown LMain t)) (Some f) then shown LMain t else None) d d1).
  { intros [k j]. destruct (tok_at d (k, j)) as [t|] eqn:Et.
    - assert (Hg : tag t = None).
      { unfold load_document in Hd. destruct (C10_loaded _ _ _ _ _ _ _ _ t Hd) as [G _]; [|exact (G LMain)].
        unfold tok_at in Et. cbn [fst snd] in Et. destruct (nth_error d k) as [l|] eqn:El; [|discriminate].
        apply in_concat. exists l. split; eapply nth_error_In; eassumption. }
      pose proof (C10_always (lb_sp b) [f] d k j t Et) as A.
      set (t1 := if omem (value (shown LMain t)) [f] then mkTok (tx t) (shown LMain t) (sub t) (ptag t) (psub t) (ws t) else t) in A.
      assert (Et1 : shown LMain t1 = shown LMain t /\ ptag t1 = ptag t /\ same_text t t1).
      { assert (Esh : shown LMain t = ptag t) by (unfold shown, shown_tag; rewrite Hg; reflexivity).
        unfold t1. destruct (omem _ _); [|repeat split]. repeat split. rewrite Esh. unfold shown, shown_tag. cbn [tag ptag]. destruct (ptag t) as [[|]|]; reflexivity. }
      destruct Et1 as (E1 & E2 & E3).
      destruct (C10_prepared (ao_preserve opts) (ao_fields opts) (ao_always opts) (ao_preserve_sub opts) (ao_no_sub opts) _ k j t1 A) as (t2 & F1 & F2 & F3 & _ & F4 & _).
      exists t2. split; [unfold d1, prepare_document; rewrite Ho1 in *; exact F1|]. split; [eapply same_text_trans; eassumption|].
      rewrite Ho1, E1, stays_only in F3. rewrite E1 in F4.
      destruct (ostreq _ _) eqn:Est.
      + destruct (F4 F3) as [_ F5]. cbn [remembered] in F5. rewrite F5, E2. unfold shown, shown_tag. now rewrite Hg.
      + unfold shown, shown_tag in F3. destruct (tag t2) as [[|]|]; (exact F3 || discriminate).
    - apply (layout_none d d1); [apply prepared_layout|exact Et]. }
  (* annotated *)
  assert (A : forall cfg fuel ts d2, annotate_one b (ASubTagOnly cfg fuel ts) d1 = Ok d2 -> doc_rel (fun t t' => shown LMain t' = if ostreq (value (shown LMain t)) (Some f) then shown LMain t else None) d d2).
  { intros cfg fuel ts d2 E. cbn [annotate_one] in E. apply C52_exact in E. intros q. specialize (P q). specialize (E q). destruct (tok_at d q) as [t|].
    - destruct P as (t1 & E1 & S1 & R1). rewrite E1 in E. destruct E as (t2 & E2 & S2 & R2 & R3 & _). exists t2. split; [exact E2|]. split; [eapply same_text_trans; eassumption|].
      assert (Esh : shown LMain t2 = ptag t1) by (unfold shown, shown_tag, oor; rewrite R2, R3; destruct (truthy (ptag t1)); reflexivity).
      rewrite Esh. exact R1.
    - rewrite P in E. exact E. }
  assert (M : forall d2 d3, doc_rel main_same d2 d3 -> doc_rel (fun t t' => shown LMain t' = if ostreq (value (shown LMain t)) (Some f) then shown LMain t else None) d d2 ->
     doc_rel (fun t t' => shown LMain t' = if ostreq (value (shown LMain t)) (Some f) then shown LMain t else None) d d3).
  { intros d2 d3 R1 R2 q. specialize (R1 q). specialize (R2 q). destruct (tok_at d q) as [t|].
    - destruct R2 as (t2 & E2 & S2 & R2). rewrite E2 in R1. destruct R1 as (t3 & E3 & S3 & T1 & T2). exists t3. split; [exact E3|]. split; [eapply same_text_trans; eassumption|].
      rewrite <- R2. unfold shown, shown_tag. now rewrite T1, T2.
    - rewrite R2 in R1. exact R1. }
  clearbody d1. unfold annotate_all in H.
  destruct c; try discriminate Hf; cbn [command_annotators may_remove] in H, Hr; unfold sub_tag_annotators, opt_list in H; cbv zeta in H; rewrite Hs, ?Hr in H; cbn [app foldM] in H.
  - destruct (annotate_one b _ d1) as [d2|] eqn:E; [|discriminate]. cbn [bind] in H. injection H as <-. now apply A in E.
  - destruct (annotate_one b _ d1) as [d2|] eqn:E; [|discriminate]. cbn [bind] in H. injection H as <-. now apply A in E.
  - destruct (annotate_one b (ASubTagOnly _ _ _) d1) as [d2|] eqn:E; [|discriminate]. cbn [bind] in H. apply A in E.
    destruct (annotate_one b (AReferences _) d2) as [d3|] eqn:E3; [|discriminate]. injection H as <-. cbn [annotate_one] in E3.
    eapply M; [|exact E]. eapply references_main. exact E3.
  - destruct (annotate_one b (ASubTagOnly _ _ _) d1) as [d2|] eqn:E; [|discriminate]. cbn [bind] in H. apply A in E. cbn [annotate_one] in H. injection H as <-.
    eapply M; [|exact E]. apply merge_sub_main.
Qed.
(* ---------------------------------------------------------------- *)
(** ** Examples *)
Definition ex_figures : xml :=
  Elem (u "tei") [] [] [Elem (u "text") [] [] [
    Elem (u "figure") [] (u "Fig 1 ") [] []; Elem (u "note") [(u "type", u "other")] (u "page") [] []] []] [].
Definition ex_fig_targets : list tann := [mkTann (u "figure") (VOne (u "Fig 1")) [(u "figure-label", VOne (u "1"))]].
(** a label is found in a figure *)
Example C82_ex : exists d d' r,
  load_document ascii_space ascii_word ascii_upper ascii_lower (command_mapping ascii_word CFigure [u "figure"]) true (container CFigure) ex_figures = Ok d /\
  command_document CFigure ex_libs ascii_upper ascii_lower [] (ex_opts [u "figure"]) (ex_inputs ex_fig_targets) ex_figures = Ok d' /\
  map (map (shown LMain)) d = [[Some (u "b-figure"); Some (u "i-figure"); Some (u "i-figure"); Some (u "i-figure"); Some []]] /\
  map (map (shown LMain)) d' = [[Some (u "b-figure"); Some (u "i-figure"); Some (u "i-figure"); Some (u "i-figure"); None]] /\
  map (map sub) d' = [[None; None; Some (u "b-figure-label"); None; None]] /\
  command_tree CFigure ex_libs ascii_upper ascii_lower usual [] (ex_opts [u "figure"]) (ex_inputs ex_fig_targets) ex_figures = Ok r /\
  r = Elem (u "tei") [] [] [Elem (u "text") [] []
        [Elem (u "figure") [] (u "Fig ") [Elem (u "head") [] [] [Elem (u "label") [] (u "1") [] []] []] (u " ");
         Elem (u "note") [(u "type", u "other")] (u "page") [] []] []] [] /\
  full_text r = full_text ex_figures /\ named ex_figures = true /\ length (find_all (container CFigure) ex_figures) = 1.
Proof. eexists _, _, _. repeat (split; [vm_compute; reflexivity|]). vm_compute. reflexivity. Qed.
(** With the option to remove untagged text, text is lost. *)
Definition ex_references : xml :=
  Elem (tei "TEI") [] [] [Elem (tei "text") [] [] [Elem (tei "back") [] [] [Elem (tei "listBibl") [] []
    [Elem (tei "bibl") [] (u "Smith 2020") [] (u " page")] []] []] []] [].
Definition ex_remove_opts : cmd_options :=
  mkOpts [u "reference"] [] [] false [] [] false [] true 200 false (mkCli 2 3 None) false true false false false false false.
Theorem C81_removed_refuted : exists o root root', may_remove CReference o = true /\
  command_tree CReference ex_libs ascii_upper ascii_lower usual [] o (ex_inputs [mkTann (u "reference") (VOne (u "Smith 2020")) [(u "reference-year", VOne (u "2020"))]]) root = Ok root' /\
  full_text root = u "Smith 2020 page" /\ full_text root' = u "Smith 2020 ".
Proof. exists ex_remove_opts, ex_references. eexists. repeat (split; [vm_compute; reflexivity|]). vm_compute. reflexivity. Qed.

Print Assumptions C81_text.
Print Assumptions C82_main_tags.
Print Assumptions C81_removed_refuted.
