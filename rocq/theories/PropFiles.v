(** C91: the commands on files. *)
From Coq Require Import QArith.
From Verif Require Import Base ModelTags ProofTags ModelTokenize ModelXml ModelTei ModelTeiDoc SpecTeiRead SpecTeiWrite SpecTeiDoc ProofTeiDoc PropTeiDoc PropTeiRead PropTokenize
  ModelMapping PropMapping ModelTarget ModelFuzzyMatch PropFuzzyMatch ModelWordMatch PropWordMatch ModelFuzzySearch PropFuzzySearch ModelClusters PropClusters ModelJoined ModelPostAnnot PropPostAnnot
  ModelLineNumbers PropLineNumbers ModelExpand ModelSegmentation ModelReference PropReference PropReferenceDoc
  ModelSimpleMatch PropSimpleMatch ModelMatch PropMatch ModelAnnotators PropAnnotators PropNames ModelCommands PropCommands PropSaves PropCommandRuns
  ModelTagConfigs PropTagConfigs PropTarget ModelTargets PropTargets ModelRuns PropTotal PropRuns ModelChecks PropChecks ModelSegChecks PropSegChecks
  ModelFixXml ModelPipeline PropPipeline ModelSource ModelFiles.
Open Scope list_scope.
Open Scope nat_scope.

Section Files.
Variable b : libs.
Variable rd : readers.
Variable fm : formats.
Variable c : command.
Variable up lo : N -> bool.
Variable node_ok : str -> list (str * str) -> bool.
Variable xm : mapping.
Variable o : cmd_options.
Variable i : inputs.
Variable ro : run_options.
(** the files before the run *)
Variable f0 : files.

(* ---------------------------------------------------------------- *)
(** ** Specification *)
Definition has_checks : Prop := c = CHeader \/ c = CSegmentation \/ c = CFulltext.
Definition out_path (src : str) : str := join_path (ro_output ro) (basename src).
(** there is a directory for rejected documents *)
Definition reject_path (src : str) (p : str) : Prop := exists dir, ro_failed ro = Some dir /\ dir <> [] /\ p = join_path dir (basename src).
(** the source that is read *)
Definition prepared (content final : str) : Prop :=
  match c with
  | CFigure => final = fix_source content
  | CFulltext => exists s s', fm_decode fm content = Ok s /\ fm_refused fm s = false /\ get_fixed_xml (fm_valid fm) (fm_events fm) s = Ok s' /\ fm_encode fm s' = Ok final
  | _ => final = content
  end.
(** the target file of a source *)
Definition target_file (src path : str) : Prop :=
  exists s name, parse_substitution (ro_regex ro) = Ok s /\ fm_sub fm (su_match s) (su_replace s) (basename src) = Ok name /\ path = join_path (ro_xml ro) name.
(** the source and its target can be read, and the command gives the document [d] *)
Definition annotated (src : str) (ts : list ModelTarget.target) (root : xml) (d : doc) : Prop :=
  exists content final path tcontent t l,
    f0 src = Some content /\ prepared content final /\ fm_source fm final = Ok root /\
    target_file src path /\ f0 path = Some tcontent /\ fm_target fm tcontent = Ok t /\
    targets_of b rd (fst (command_fields c xm o)) t = Ok l /\ ts = map (fun a => mkTarget (tg_name a) (tg_value a)) l /\
    run_document b rd c up lo xm o i t root = Ok d.
(** the fields to check *)
Definition to_check (f : str) : Prop := has_checks /\ (In f (ro_matching ro) \/ In f (ro_required ro)).
(** the text tagged with the field is like its value; for segmentation: the value is found in the text of the segment *)
Definition matches (d : doc) (f v : str) : Prop :=
  match c with
  | CSegmentation => value_ok (lb_sp b) (lb_alpha b) (fm_lsm fm) (fm_words fm) d (sc_mapping (in_segmentation i)) f v
  | _ => entity_texts (lb_sp b) f d <> [] /\ fm_similar fm v (join_str (u " ") (entity_texts (lb_sp b) f d)) = true
  end.
Definition accepted (ts : list ModelTarget.target) (d : doc) : Prop :=
  (forall f, has_checks -> In f (ro_required ro) -> target_values f ts <> []) /\
  (forall f v, to_check f -> target_values f ts = [VOne v] -> matches d f v).
(** the checks can be done: the fields have at most one value, which is a text; for segmentation they are in a segment *)
Definition can_check (ts : list ModelTarget.target) : Prop :=
  (forall f, ~ to_check f) \/
  (ts <> [] /\ (forall f, to_check f -> checkable f ts) /\
   (c = CSegmentation -> forall f, to_check f -> target_values f ts <> [] -> exists e, last_listed (sc_mapping (in_segmentation i)) f e)).
(** the document can be saved as [s] *)
Definition saves (root : xml) (d : doc) (s : str) : Prop :=
  exists r, updated_tei (lb_sp b) node_ok (command_mapping (lb_wd b) c (snd (command_fields c xm o))) (container c) root d = Ok r /\ fm_write fm r = Ok s.

(* ---------------------------------------------------------------- *)
(** ** The checks *)
Hypothesis Hlsm : lsm_ok (fm_lsm fm).
Hypothesis Hwords : words_ok (fm_words fm).
Hypothesis Hunion : forall l l' f, In f (fm_union fm l l') <-> In f l \/ In f l'.

Let checks := command_checks b fm c i ro.
Lemma checked_spec f : checked f (fst (checks_of c ro)) (snd (checks_of c ro)) <-> to_check f.
Proof. unfold checked, to_check, has_checks, checks_of. destruct c; cbn [fst snd In]; intuition discriminate. Qed.
Lemma required_spec f : In f (snd (checks_of c ro)) <-> has_checks /\ In f (ro_required ro).
Proof. unfold has_checks, checks_of. destruct c; cbn [fst snd In]; intuition discriminate. Qed.
Lemma nothing_accepted ts d : (forall f, ~ to_check f) -> accepted ts d.
Proof. intros H. split; intros f; [intros H1 H2; exfalso; apply (H f); split; tauto|intros v Hf; exfalso; exact (H f Hf)]. Qed.
(** The result of the checks, if there is one. *)
Lemma checks_spec d ts ok : checks d ts = Ok ok -> (ok = true <-> accepted ts d).
Proof.
  intros H. unfold checks, command_checks in H. set (ma := fst (checks_of c ro)) in *. set (re := snd (checks_of c ro)) in *.
  assert (C : forall f, checked f ma re <-> to_check f) by exact checked_spec.
  assert (D : (forall f, ~ to_check f) \/ exists f, to_check f).
  { destruct (ma ++ re) as [|f l] eqn:E; [left|right].
    - intros f Hf. apply C in Hf. unfold checked in Hf. assert (In f (ma ++ re)) by (apply in_app_iff; exact Hf). now rewrite E in H0.
    - exists f. apply C. unfold checked. apply in_app_iff. rewrite E. now left. }
  assert (G : c = CSegmentation \/ c <> CSegmentation /\ passing (lb_sp b) (fm_similar fm) d ma re ts = Ok ok) by (destruct c; (now left) || (right; split; [discriminate|exact H])).
  assert (K : forall (P : Prop), (exists f, to_check f) -> (ts = [] \/ (exists f, checked f ma re /\ ~ checkable f ts) -> False) ->
     (ts <> [] -> (forall f, checked f ma re -> checkable f ts) -> P) -> P).
  { intros P _ F HP. apply HP; [intros ->; apply F; now left|]. intros f Hf.
    assert (X : checkable f ts \/ ~ checkable f ts); [|destruct X as [X|X]; [exact X|exfalso; apply F; right; now exists f]].
    unfold checkable. destruct (target_values f ts) as [|[v|l] [|y k]]; try (left; tauto); try (right; intros [Q|[w Q]]; discriminate); left; right; now exists v. }
  destruct D as [D|D].
  { assert (Hok : ok = true).
    { assert (Em : ma = []). { destruct ma as [|f l] eqn:E; [reflexivity|]. exfalso. apply (D f), C. left. now left. }
      assert (Er : re = []). { destruct re as [|f l] eqn:E; [reflexivity|]. exfalso. apply (D f), C. right. now left. }
      destruct c eqn:Ec; try (rewrite Em, Er in H; cbn in H; congruence).
      assert (Eu : fm_union fm ma re = []). { destruct (fm_union fm ma re) as [|f l] eqn:E; [reflexivity|]. exfalso. apply (D f), C. apply Hunion. rewrite E. now left. }
      rewrite Eu in H. cbn in H. congruence. }
    split; [intros _; now apply nothing_accepted|auto]. }
  destruct G as [Ec|[Ec G]].
  - assert (H' : seg_passing (lb_sp b) (lb_alpha b) (fm_lsm fm) (fm_words fm) d (fm_union fm ma re) re ts (sc_mapping (in_segmentation i)) = Ok ok) by (rewrite Ec in H; exact H).
    assert (He : enumerates (fm_union fm ma re) ma re) by (intros f; apply Hunion).
    apply (K _ D).
    + intros F. rewrite (C83_error (lb_sp b) (lb_alpha b) (fm_lsm fm) (fm_words fm) d _ ma re ts _ He) in H'; [discriminate|destruct D as [f D]; exists f; now apply C|exact F].
    + intros T1 T2. destruct (C83_passes (lb_sp b) (lb_alpha b) (fm_lsm fm) (fm_words fm) Hlsm Hwords d _ ma re ts (sc_mapping (in_segmentation i)) He T1 T2) as (A & _ & _).
      rewrite H' in A. assert (A' : ok = true <-> Ok ok = Ok true) by (split; congruence). rewrite A', A. clear A A'. unfold accepted, matches. rewrite Ec.
      split; intros [A1 A2]; (split; [|intros f v Hf; apply A2; now apply C]).
      * intros f Hh Hf. apply A1. apply required_spec. split; assumption.
      * intros f Hf. apply required_spec in Hf as [Hh Hf]. now apply A1.
  - apply (K _ D).
    + intros F. rewrite (C40_error (lb_sp b) (fm_similar fm) d ma re ts) in G; [discriminate|destruct D as [f D]; exists f; now apply C|exact F].
    + intros T1 T2. destruct (C40_passes (lb_sp b) (fm_similar fm) d ma re ts T1 T2) as (ok' & E & A). rewrite G in E. injection E as <-. rewrite A.
      unfold accepted.
      assert (M : forall f v, matches d f v <-> entity_texts (lb_sp b) f d <> [] /\ fm_similar fm v (join_str (u " ") (entity_texts (lb_sp b) f d)) = true) by (intros f v; unfold matches; destruct c; tauto).
      split; intros [A1 A2].
      * split; [intros f Hh Hf; apply A1; now apply required_spec|]. intros f v Hf Hv. apply M, A2; [now apply C|exact Hv].
      * split; [intros f Hf; apply required_spec in Hf as [Hh Hf]; now apply A1|]. intros f v Hf Hv. apply M, A2; [now apply C|exact Hv].
Qed.
(** They have a result. *)
Lemma checks_total d ts : can_check ts -> exists ok, checks d ts = Ok ok.
Proof.
  intros H. unfold checks, command_checks. set (ma := fst (checks_of c ro)) in *. set (re := snd (checks_of c ro)) in *.
  assert (C : forall f, checked f ma re <-> to_check f) by exact checked_spec.
  destruct H as [H|(H1 & H2 & H3)].
  - assert (Em : ma = []). { destruct ma as [|f l] eqn:E; [reflexivity|]. exfalso. apply (H f), C. left. now left. }
    assert (Er : re = []). { destruct re as [|f l] eqn:E; [reflexivity|]. exfalso. apply (H f), C. right. now left. }
    assert (Eu : fm_union fm ma re = []). { destruct (fm_union fm ma re) as [|f l] eqn:E; [reflexivity|]. exfalso. apply (H f), C. apply Hunion. rewrite E. now left. }
    rewrite Eu, Em, Er. exists true. destruct c; reflexivity.
  - assert (T : forall f, checked f ma re -> checkable f ts) by (intros f Hf; now apply H2, C).
    assert (P : exists ok, passing (lb_sp b) (fm_similar fm) d ma re ts = Ok ok) by (destruct (C40_passes (lb_sp b) (fm_similar fm) d ma re ts H1 T) as (ok & E & _); now exists ok).
    destruct c eqn:Ec; try exact P. assert (He : enumerates (fm_union fm ma re) ma re) by (intros f; apply Hunion).
    destruct (C83_passes (lb_sp b) (lb_alpha b) (fm_lsm fm) (fm_words fm) Hlsm Hwords d _ ma re ts (sc_mapping (in_segmentation i)) He H1 T) as (_ & [A|[A|A]] & B); [eauto|eauto|].
    destruct (B A) as (f & F1 & F2 & F3). destruct (H3 eq_refl f (proj1 (C f) F1) F2) as [e He']. exfalso. exact (F3 e He').
Qed.

(* ---------------------------------------------------------------- *)
(** ** One source *)
Let process := process_file b rd fm c up lo node_ok xm o i ro f0.
Let fixes := command_fix fm c.
Let the_task := task_for (ro_output ro) (ro_failed ro).
Lemma reject_path_spec src p : reject_path src p <-> tk_failed (the_task src) = Some p.
Proof.
  unfold the_task, task_for, tk_failed, failed_path, reject_path. destruct (ro_failed ro) as [[|x dir]|].
  - split; [intros (d & [= <-] & H & _); easy|discriminate].
  - split; [intros (d & [= <-] & _ & ->); reflexivity|intros [= <-]; exists (x :: dir); easy].
  - split; [intros (d & [=] & _)|discriminate].
Qed.
Lemma prepared_spec content final : prepared content final <-> final_source fixes content = Some final.
Proof.
  unfold prepared, final_source, fixes, command_fix. destruct c; try (split; congruence). unfold fixed_fulltext.
  destruct (fm_decode fm content) as [s|]; cbn [bind to_opt]; [|split; [intros (s & s' & [=] & _)|discriminate]].
  destruct (fm_refused fm s) eqn:Er; [split; [intros (s0 & s' & [= <-] & E & _); congruence|discriminate]|].
  destruct (get_fixed_xml (fm_valid fm) (fm_events fm) s) as [s'|] eqn:Eg; cbn [bind to_opt]; [|split; [intros (s0 & s' & [= <-] & _ & E & _); congruence|discriminate]].
  destruct (fm_encode fm s') as [x|] eqn:Ee; cbn [to_opt].
  - split; [intros (s0 & s1 & [= <-] & _ & E & E'); congruence|]. intros [= <-]. exists s, s'. now repeat split.
  - split; [intros (s0 & s1 & [= <-] & _ & E & E'); congruence|discriminate].
Qed.
Lemma target_of_spec targets src t : target_of fm ro targets src = Ok t <->
  exists path tcontent, target_file src path /\ targets path = Some tcontent /\ fm_target fm tcontent = Ok t.
Proof.
  unfold target_of, target_xml_path, regex_change_name, target_file. destruct (parse_substitution (ro_regex ro)) as [s|e]; cbn [bind].
  2:{ split; [discriminate|]. intros (p & tc & (s & n & E & _) & _). discriminate. }
  destruct (fm_sub fm (su_match s) (su_replace s) (basename src)) as [n|e] eqn:En; cbn [bind].
  2:{ split; [discriminate|]. intros (p & tc & (s' & n & [= <-] & E & _) & _). congruence. }
  destruct (targets (join_path (ro_xml ro) n)) as [tc|] eqn:Et; cbn [of_opt bind].
  - split.
    + intros H. exists (join_path (ro_xml ro) n), tc. split; [now exists s, n|]. split; assumption.
    + intros (p & tc' & (s' & n' & [= <-] & E & ->) & T1 & T2). assert (n' = n) as -> by congruence. assert (tc' = tc) as -> by congruence. exact T2.
  - split; [discriminate|]. intros (p & tc' & (s' & n' & [= <-] & E & ->) & T1 & _). assert (n' = n) as -> by congruence. congruence.
Qed.
Lemma checked_inputs t i' : run_inputs b rd c xm o i t = Ok i' -> exists l, targets_of b rd (fst (command_fields c xm o)) t = Ok l /\
  checked_targets i' = map (fun a => mkTarget (tg_name a) (tg_value a)) l.
Proof.
  intros H. apply inputs_inv in H as (l & tags & H & _ & ->). exists l. split; [exact H|]. unfold checked_targets. cbn [in_targets]. rewrite map_map. reflexivity.
Qed.
Lemma saved_spec root d s : saved b fm c node_ok xm o root d = Ok s <-> saves root d s.
Proof.
  unfold saved, saves. destruct (updated_tei _ _ _ _ _ _) as [r|e]; cbn [bind].
  - split; [intros H; now exists r|intros (r' & [= <-] & H); exact H].
  - split; [discriminate|intros (r' & [=] & _)].
Qed.
(** what the model of one source gives *)
Lemma outcome_spec src :
  match outcome_of process fixes (the_task src) f0 with
  | OSave s => exists ts root d, annotated src ts root d /\ accepted ts d /\ saves root d s
  | OReject s => exists ts root d, annotated src ts root d /\ ~ accepted ts d /\ forall p, reject_path src p -> saves root d s
  | OFail => forall ts root d, annotated src ts root d -> can_check ts -> ~ exists s, saves root d s
  end.
Proof.
  unfold outcome_of. cbn [tk_src task_for the_task]. destruct (f0 src) as [content|] eqn:Ec.
  2:{ intros ts root d (content & ? & ? & ? & ? & ? & H & _). congruence. }
  destruct (final_source fixes content) as [final|] eqn:Ef.
  2:{ intros ts root d (content' & final & ? & ? & ? & ? & H1 & H2 & _). assert (content' = content) as -> by congruence. apply prepared_spec in H2. congruence. }
  unfold process, process_file. destruct (annotate_file b rd fm c up lo node_ok xm o i ro f0 src final) as [out|e] eqn:E.
  - unfold annotate_file in E. destruct (target_of fm ro f0 src) as [t|] eqn:Et; [|discriminate]. cbn [bind] in E. apply target_of_spec in Et as (path & tc & T1 & T2 & T3).
    destruct (run_inputs b rd c xm o i t) as [i'|] eqn:Ei; [|discriminate]. cbn [bind] in E. destruct (fm_source fm final) as [root|] eqn:Er; [|discriminate]. cbn [bind] in E.
    destruct (command_document c b up lo xm o i' root) as [d|] eqn:Ed; [|discriminate]. cbn [bind] in E. destruct (command_checks b fm c i ro d (checked_targets i')) as [ok|] eqn:Ek; [|discriminate]. cbn [bind] in E.
    destruct (checked_inputs t i' Ei) as (l & L1 & L2). rewrite L2 in Ek. pose proof (checks_spec d _ ok Ek) as A.
    assert (Q : annotated src (map (fun a => mkTarget (tg_name a) (tg_value a)) l) root d).
    { exists content, final, path, tc, t, l. split; [exact Ec|]. split; [now apply prepared_spec|]. repeat (split; [assumption|]). split; [reflexivity|]. unfold run_document. rewrite Ei. exact Ed. }
    destruct ok.
    + destruct (saved b fm c node_ok xm o root d) as [s|] eqn:Es; [|discriminate]. injection E as <-. eexists _, root, d. split; [exact Q|]. split; [now apply A|now apply saved_spec].
    + assert (A' : ~ accepted (map (fun a => mkTarget (tg_name a) (tg_value a)) l) d) by (intros X; apply A in X; discriminate).
      destruct (failed_path (ro_failed ro) src) as [q|] eqn:Eq.
      * destruct (saved b fm c node_ok xm o root d) as [s|] eqn:Es; [|discriminate]. injection E as <-. eexists _, root, d. split; [exact Q|]. split; [exact A'|]. intros p _. now apply saved_spec.
      * injection E as <-. eexists _, root, d. split; [exact Q|]. split; [exact A'|]. intros p Hp. apply reject_path_spec in Hp. unfold the_task, task_for, tk_failed in Hp. congruence.
  - intros ts root d (content' & final' & path & tc & t & l & H1 & H2 & H3 & H4 & H5 & H6 & H7 & -> & H9) Hcan (s & Hs).
    assert (content' = content) as -> by congruence. apply prepared_spec in H2. assert (final' = final) as -> by congruence.
    unfold annotate_file in E. rewrite (proj2 (target_of_spec f0 src t)) in E by eauto. cbn [bind] in E. unfold run_document in H9.
    destruct (run_inputs b rd c xm o i t) as [i'|] eqn:Ei; [|discriminate]. cbn [bind] in E, H9. rewrite H3 in E. cbn [bind] in E. rewrite H9 in E. cbn [bind] in E.
    destruct (checked_inputs t i' Ei) as (l' & L1 & L2). assert (l' = l) as -> by congruence. rewrite L2 in E.
    destruct (checks_total d _ Hcan) as [ok Hok]. unfold checks in Hok. rewrite Hok in E. cbn [bind] in E. rewrite (proj2 (saved_spec root d s) Hs) in E. cbn [bind] in E.
    destruct ok; [discriminate|]. destruct (failed_path _ _); discriminate.
Qed.

(* ---------------------------------------------------------------- *)
(** ** Runs *)
Variable srcs : list str.
Variable workers : nat.
Variable shared : bool.
Hypothesis Hnames : NoDup (map basename srcs).
(** no source is an output *)
Hypothesis Hsources : forall src src', In src srcs -> In src' srcs -> src <> out_path src' /\ ~ reject_path src' src.
Let run := command_steps b rd fm c up lo node_ok xm o i ro f0 srcs workers shared.

Lemma tasks_apart : apart (tasks_of ro srcs).
Proof. now apply C43_names. Qed.
Lemma tasks_sources : sources_kept (tasks_of ro srcs).
Proof.
  intros t t' Ht Ht' Hp. unfold tasks_of in *. apply in_map_iff in Ht as (src & <- & Hs). apply in_map_iff in Ht' as (src' & <- & Hs').
  destruct (Hsources src src' Hs Hs') as [H1 H2]. cbn [tk_src task_for] in Hp. destruct Hp as [Hp|Hp]; [now apply H1|]. apply H2, reject_path_spec. unfold the_task.
  destruct (tk_failed _) as [q|]; [|easy]. destruct Hp as [->|[]]. reflexivity.
Qed.
(** At the end of a run, with any workers: each source has been annotated, accepted and
    saved; or annotated, not accepted, and saved elsewhere or not at all; or it has failed
    and has no output.  *)
Theorem C91_run k w n src : run k (initial (tasks_of ro srcs) f0) w -> finished (tasks_of ro srcs) w -> nth_error srcs n = Some src ->
  (exists ts root d s, annotated src ts root d /\ accepted ts d /\ saves root d s /\
     w_place w n = Done false /\ w_files w (out_path src) = Some s /\
     forall p, reject_path src p -> p <> out_path src -> w_files w p = f0 p) \/
  (exists ts root d, annotated src ts root d /\ ~ accepted ts d /\
     w_place w n = Done false /\ (~ reject_path src (out_path src) -> w_files w (out_path src) = f0 (out_path src)) /\
     forall p, reject_path src p -> exists s, saves root d s /\ w_files w p = Some s) \/
  (w_place w n = Done true /\ w_files w (out_path src) = f0 (out_path src) /\ forall p, reject_path src p -> w_files w p = f0 p).
Proof.
  intros Hk Hf Hn. assert (Ht : nth_error (tasks_of ro srcs) n = Some (the_task src)) by (unfold tasks_of; now rewrite nth_error_map, Hn).
  assert (P : forall p, reject_path src p -> In p (paths (the_task src))) by (intros p Hp; apply reject_path_spec in Hp; unfold paths; rewrite Hp; right; now left).
  assert (O : In (out_path src) (paths (the_task src))) by now left.
  destruct (C43_safe process fixes (tasks_of ro srcs) workers shared f0 tasks_apart tasks_sources k w n _ Hk Hf Ht) as [[E U]|(E & E2 & U)].
  { right. right. split; [exact E|]. split; [now apply U|]. intros p Hp. now apply U, P. }
  destruct (sequential_gen process fixes f0 (tasks_of ro srcs) tasks_apart tasks_sources) as (S1 & _ & S3).
  assert (V : forall p, In p (paths (the_task src)) -> w_files w p = result process fixes f0 (the_task src) p).
  { intros p Hp. rewrite (U p Hp). unfold sequential. apply S3; [eapply nth_error_In; exact Ht|exact Hp]. }
  unfold result, PropPipeline.target, wanted in V. pose proof (outcome_spec src) as Q. unfold sequential in E2. rewrite S1, nth_error_map, Ht in E2. cbn [option_map] in E2. unfold wanted in E2.
  destruct (outcome_of process fixes (the_task src) f0) as [s|s|]; cbn [save_target is_fail] in V, E2; [| |discriminate].
  - left. destruct Q as (ts & root & d & Q1 & Q2 & Q3). exists ts, root, d, s. repeat (split; [assumption|]). split; [|].
    + rewrite (V _ O). change (tk_out (the_task src)) with (out_path src). now rewrite streq_refl.
    + intros p Hp Hne. rewrite (V p (P p Hp)). change (tk_out (the_task src)) with (out_path src). apply streq_false in Hne. now rewrite Hne.
  - right. left. destruct Q as (ts & root & d & Q1 & Q2 & Q3). exists ts, root, d. repeat (split; [assumption|]). split.
    + intros Hne. rewrite (V _ O). destruct (tk_failed (the_task src)) as [q|] eqn:Eq; cbn [option_map]; [|reflexivity]. destruct (streq (out_path src) q) eqn:Es; [|reflexivity].
      apply streq_true in Es. exfalso. apply Hne. apply reject_path_spec. congruence.
    + intros p Hp. exists s. split; [now apply (Q3 p)|]. rewrite (V p (P p Hp)). rewrite (proj1 (reject_path_spec src p) Hp). cbn [option_map]. now rewrite streq_refl.
Qed.
(** Other files, the targets among them, stay as they are, all the time. *)
Theorem C91_others k w p : run k (initial (tasks_of ro srcs) f0) w ->
  (forall src, In src srcs -> p <> out_path src /\ ~ reject_path src p) -> w_files w p = f0 p.
Proof.
  intros Hk Hp. apply (C43_others process fixes (tasks_of ro srcs) workers shared f0 tasks_apart tasks_sources k w p Hk). intros t Ht Hin.
  unfold tasks_of in Ht. apply in_map_iff in Ht as (src & <- & Hs). destruct (Hp src Hs) as [H1 H2]. destruct Hin as [<-|Hin]; [now apply H1|].
  apply H2, reject_path_spec. unfold the_task. destruct (tk_failed _) as [q|]; [|easy]. destruct Hin as [->|[]]. reflexivity.
Qed.
(** A source fails only if it cannot be annotated, checked or saved, if no worker shares its
    temporary files with others. *)
Theorem C91_works k w n src ts root d s : isolated (command_fix fm c) workers shared -> run k (initial (tasks_of ro srcs) f0) w -> finished (tasks_of ro srcs) w ->
  nth_error srcs n = Some src -> annotated src ts root d -> can_check ts -> saves root d s -> w_place w n = Done false.
Proof.
  intros Hiso Hk Hf Hn Ha Hc Hs. assert (Ht : nth_error (tasks_of ro srcs) n = Some (the_task src)) by (unfold tasks_of; now rewrite nth_error_map, Hn).
  destruct (C45_alone process fixes (tasks_of ro srcs) workers shared f0 tasks_apart tasks_sources k w n _ Hiso Hk Hf Ht) as (e & E & E1 & _). rewrite E. f_equal. rewrite <- E1.
  unfold auto_annotate. cbn [snd]. pose proof (outcome_spec src) as Q. destruct (outcome_of process fixes (the_task src) f0); try reflexivity.
  exfalso. apply (Q ts root d Ha Hc). now exists s.
Qed.
(** The text of the source is saved. *)
Theorem C91_text src ts root d s e : annotated src ts root d -> saves root d s ->
  may_remove c o = false -> SpecTeiRead.named root = true -> find_all (container c) root = [e] ->
  exists r, fm_write fm r = Ok s /\ full_text r = full_text root.
Proof.
  intros (content & final & path & tc & t & l & _ & _ & _ & _ & _ & _ & _ & _ & H) (r & Hr & Hw) Hm Hn He. exists r. split; [exact Hw|].
  unfold run_document in H. destruct (run_inputs b rd c xm o i t) as [i'|]; [|discriminate]. cbn [bind] in H. unfold command_document in H.
  apply (C81_text c b up lo node_ok xm o i' root r e Hm Hn He). unfold command_tree, annotated_tree. rewrite H. cbn [bind]. exact Hr.
Qed.
End Files.

(* ---------------------------------------------------------------- *)
(** ** Runs without failures *)
Section Good.
Variable b : libs.
Variable rd : readers.
Variable fm : formats.
Variable c : command.
Variable up lo : N -> bool.
Variable node_ok : str -> list (str * str) -> bool.
Variable xm : mapping.
Variable o : cmd_options.
Variable i : inputs.
Variable ro : run_options.
Variable f0 : files.
Hypothesis sp_ws4 : forall c, ws4 c = true -> lb_sp b c = true.
(** the source can be read and has elements that can be loaded; so can its target *)
Definition good_source (src : str) : Prop :=
  exists content final path tcontent t root,
    f0 src = Some content /\ prepared fm c content final /\ fm_source fm final = Ok root /\
    target_file fm ro src path /\ f0 path = Some tcontent /\ fm_target fm tcontent = Ok t /\
    usual_readers b rd /\ readable_mapping b rd c o (fst (command_fields c xm o)) t /\
    (is_simple c o = true -> with_subs c -> forall m k, dict_get (td_tag t) (fst (command_fields c xm o)) = Some m -> no_sub_regex m k) /\
    forallb loadable (find_all (container c) root) = true /\ find_all (container c) root <> [] /\
    (forall e x, In e (find_all (container c) root) -> below e x -> plain_elem node_ok x) /\
    (forall l, targets_of b rd (fst (command_fields c xm o)) t = Ok l -> can_check c i ro (map (fun a => mkTarget (tg_name a) (tg_value a)) l)).
(** the names of the fields and segments *)
Definition good_names : Prop :=
  (forall f, In f (snd (command_fields c xm o)) -> In f (map fst (base_mapping c)) \/ plain_field f) /\
  (forall f, asked_field xm o f -> starts_with (u "b-") f = false /\ starts_with (u "i-") f = false /\ (c = CSegmentation -> In f (map fst (base_mapping c)) \/ xml_name f = true)) /\
  (forall n, asked_sub c xm o n -> starts_with (u "b-") n = false /\ starts_with (u "i-") n = false /\ (n = [] \/ In n (map fst (base_mapping c)) \/ xml_name n = true)) /\
  (forall n, In n (map fst (sc_mapping (in_segmentation i))) -> plain_tag (command_mapping (lb_wd b) c (snd (command_fields c xm o))) n).
Theorem C91_total : forall srcs workers shared,
  lsm_ok (fm_lsm fm) -> words_ok (fm_words fm) -> (forall l l' f, In f (fm_union fm l l') <-> In f l \/ In f l') -> (forall r, exists s, fm_write fm r = Ok s) ->
  searches b -> ascii_right (lb_wd b) -> accepts_usual node_ok -> proper_options b c o i -> good_names ->
  NoDup (map basename srcs) -> (forall src src', In src srcs -> In src' srcs -> src <> out_path ro src' /\ ~ reject_path ro src' src) ->
  isolated (command_fix fm c) workers shared -> (forall src, In src srcs -> good_source src) ->
  exists fuel, forall m k w, fuel <= m ->
    command_steps b rd fm c up lo node_ok xm o (with_fuel m i) ro f0 srcs workers shared k (initial (tasks_of ro srcs) f0) w -> finished (tasks_of ro srcs) w ->
    forall n, n < length srcs -> w_place w n = Done false.
Proof using sp_ws4.
  intros srcs workers shared H1 H2 H3 Hwr Hb Hw Ha Hp (N1 & N2 & N3 & N4) Hnd Hsrc Hiso Hgood.
  assert (G : forall l, (forall src, In src l -> good_source src) -> exists fuel, forall src m, In src l -> fuel <= m -> exists ts root d s,
     annotated b rd fm c up lo xm o (with_fuel m i) ro f0 src ts root d /\ can_check c (with_fuel m i) ro ts /\ saves b fm c node_ok xm o root d s).
  { induction l as [|src l IH]; intros Hl; [exists 0; easy|]. destruct IH as [n2 IH]; [intros x Hx; apply Hl; now right|].
    destruct (Hl src (or_introl eq_refl)) as (content & final & path & tc & t & root & G1 & G2 & G3 & G4 & G5 & G6 & G7 & G8 & G9 & G10 & G11 & G12 & G13).
    destruct (C90_saves b rd sp_ws4 c up lo node_ok xm o i t root Hb G7 Hw Ha Hp G8 G9 G10 G11 G12 N1 N2 N3 N4) as (r & n1 & S).
    exists (Nat.max n1 n2). intros src' m [<-|Hin] Hm; [|apply IH; [exact Hin|lia]]. specialize (S m ltac:(lia)). unfold run_tree in S.
    destruct (run_inputs b rd c xm o (with_fuel m i) t) as [i'|] eqn:Ei; [|discriminate]. cbn [bind] in S. unfold command_tree, annotated_tree in S.
    destruct (annotated_document b up lo _ true (container c) (command_options c o) (command_annotators c o i') root) as [d|] eqn:Ed; [|discriminate]. cbn [bind] in S.
    pose proof Ei as Ei'. apply inputs_inv in Ei' as (l' & tags & L & _ & _). destruct (Hwr r) as [s Hs].
    exists (map (fun a => mkTarget (tg_name a) (tg_value a)) l'), root, d, s. split; [|split].
    - exists content, final, path, tc, t, l'. repeat (split; [assumption|]). split; [reflexivity|]. unfold run_document. rewrite Ei. exact Ed.
    - exact (G13 l' L).
    - exists r. split; assumption. }
  destruct (G srcs Hgood) as [fuel G']. exists fuel. intros m k w Hm Hk Hf n Hn. destruct (nth_error srcs n) as [src|] eqn:En; [|apply nth_error_None in En; lia].
  destruct (G' src m (nth_error_In _ _ En) Hm) as (ts & root & d & s & A & C & S).
  eapply (C91_works b rd fm c up lo node_ok xm o (with_fuel m i) ro f0 H1 H2 H3 srcs workers shared Hnd Hsrc k w n src ts root d s); eassumption.
Qed.
End Good.

(* ---------------------------------------------------------------- *)
(** ** Example: three sources of the header command; the title is required *)
Fixpoint show (e : xml) : str :=
  match e with Misc tail => tail | Elem n _ text kids tail => u "<" ++ n ++ u ">" ++ text ++ flat_map show kids ++ u "</" ++ n ++ u ">" ++ tail end.
Definition head_source (s : string) : xml :=
  Elem (u "tei") [] [] [Elem (u "text") [] [] [Elem (u "front") [] (u s) [Elem (u "lb") [] [] [] (u "page")] []] []] [].
Definition head_target : target_doc :=
  mkTargetDoc (u "article") (El [] [leaf_el "About stones"] []) (fun e x => if streq x (u ".//title") then Ok [[0]] else Ok []) all_content.
Definition head_formats : formats :=
  mkFormats (fun s => if streq s (u "A") then Ok (head_source "About stones") else if streq s (u "B") then Ok (head_source "Other words") else Err ValueError)
    (fun s => if streq s (u "T") then Ok head_target else Err ValueError) (fun r => Ok (show r)) (fun m r s => Ok (py_replace m r s))
    (@Ok str) (@Ok str) (fun _ => false) (fun _ => true) (fun _ => []) streq prefix_lsm PropWordMatch.first_word
    (fun l l' => l' ++ l).
Definition head_run : run_options := mkRunOptions (u "out") (Some (u "bad")) (u "xml") (u "/.header/.jats/") [] [u "title"].
Definition head_files : files := fun p =>
  if streq p (u "in/a.header") then Some (u "A") else if streq p (u "in/b.header") then Some (u "B") else if streq p (u "in/c.header") then Some (u "A")
  else if streq p (u "xml/a.jats") then Some (u "T") else if streq p (u "xml/b.jats") then Some (u "T") else None.
Definition head_mapping : mapping := [(u "article", [(u "title", u ".//title"); (u "author", u ".//author")])].
Definition head_opts : cmd_options :=
  mkOpts [u "title"] [] [] false [] [] false [] true 200 false (mkCli 2 3 None) false false false false false false false.
Definition head_srcs : list str := [u "in/a.header"; u "in/b.header"; u "in/c.header"].
Definition head_process := process_file real_libs ex_readers head_formats CHeader ascii_upper ascii_lower usual head_mapping head_opts (with_fuel 20 fig_inputs) head_run head_files.
(** two workers, in turns *)
Definition head_order : list nat := [0; 0] ++ concat (repeat [1; 2] 6) ++ repeat 1 200 ++ repeat 2 200 ++ [0] ++ repeat 3 10.
Example C91_ex : exists k w,
  command_steps real_libs ex_readers head_formats CHeader ascii_upper ascii_lower usual head_mapping head_opts (with_fuel 20 fig_inputs) head_run head_files head_srcs 2 true
    k (initial (tasks_of head_run head_srcs) head_files) w /\ finished (tasks_of head_run head_srcs) w /\
  map (w_place w) [0; 1; 2] = [Done false; Done false; Done true] /\
  map (w_files w) [u "out/a.header"; u "bad/a.header"; u "out/b.header"; u "bad/b.header"; u "out/c.header"; u "bad/c.header"] =
    [Some (u "<tei><text><front><docTitle><titlePart>About stones<lb></lb></titlePart></docTitle><note>page</note></front></text></tei>"); None;
     None; Some (u "<tei><text><front><note>Other words<lb></lb>page</note></front></text></tei>"); None; None] /\
  NoDup (map basename head_srcs) /\
  (forall src src', In src head_srcs -> In src' head_srcs -> src <> out_path head_run src' /\ ~ reject_path head_run src' src).
Proof.
  set (x := exec_all head_process None (tasks_of head_run head_srcs) 2 true (initial (tasks_of head_run head_srcs) head_files) head_order).
  pose proof (exec_all_steps head_process None (tasks_of head_run head_srcs) 2 true (initial (tasks_of head_run head_srcs) head_files) head_order) as X. fold x in X.
  exists (length (snd x)), (fst x). split; [exact X|]. clear X.
  assert (E : (map (w_place (fst x)) [0; 1; 2],
     map (w_files (fst x)) [u "out/a.header"; u "bad/a.header"; u "out/b.header"; u "bad/b.header"; u "out/c.header"; u "bad/c.header"]) =
    ([Done false; Done false; Done true],
     [Some (u "<tei><text><front><docTitle><titlePart>About stones<lb></lb></titlePart></docTitle><note>page</note></front></text></tei>"); None;
     None; Some (u "<tei><text><front><note>Other words<lb></lb>page</note></front></text></tei>"); None; None])) by (vm_compute; reflexivity).
  clearbody x. generalize (fst x) E. clear x E. intros w E. apply pair_equal_spec in E as [E F]. split.
  { cbn [map] in E. injection E as E1 E2 E3. intros [|[|[|n]]] Hn; cbn in Hn; try lia; eauto. }
  split; [exact E|]. split; [exact F|]. clear E F. split.
  - repeat constructor; cbn; intuition discriminate.
  - intros src src' H H'. cbn [head_srcs In] in H, H'.
    destruct H as [<-|[<-|[<-|[]]]], H' as [<-|[<-|[<-|[]]]]; (split; [vm_compute; discriminate|intros (dir & [= <-] & _ & E); vm_compute in E; discriminate]).
Qed.
(** The first two meet what is asked for by C91_total. *)
Definition two_srcs : list str := [u "in/a.header"; u "in/b.header"].
Lemma head_fields : command_fields CHeader head_mapping head_opts = ([(u "article", [(u "title", u ".//title")])], [u "title"]).
Proof. reflexivity. Qed.
Lemma head_elems s e x : In e (find_all (container CHeader) (head_source s)) -> below e x -> plain_elem usual x.
Proof.
  assert (P : forall x, x = Elem (u "front") [] (u s) [Elem (u "lb") [] [] [] (u "page")] [] \/ x = Elem (u "lb") [] [] [] (u "page") -> plain_elem usual x).
  { intros y [-> | ->].
    - split; [split; [discriminate|cbn; intuition discriminate]|]. split; [exact I|].
      split; [reflexivity|]. split; [exists [], (u "front"); split; [reflexivity|]; split; [now apply safe_check|now left]|constructor].
    - split; [split; [discriminate|cbn; intuition discriminate]|]. split; [exact I|].
      split; [reflexivity|]. split; [exists [], (u "lb"); split; [reflexivity|]; split; [now apply safe_check|now left]|constructor]. }
  intros He Hb. apply P. cbn in He. destruct He as [<-|[]].
  repeat match goal with
    | H : below (Elem _ _ _ _ _) _ |- _ => inversion H; clear H; subst
    | H : In _ (_ :: _) |- _ => destruct H as [<-|H]
    | H : In _ [] |- _ => destruct H
    end; auto.
Qed.
Example C91_ex_total :
  (forall src, In src two_srcs -> good_source real_libs ex_readers head_formats CHeader usual head_mapping head_opts fig_inputs head_run head_files src) /\ good_names real_libs CHeader head_mapping head_opts fig_inputs /\ lsm_ok (fm_lsm head_formats) /\ words_ok (fm_words head_formats) /\ (forall l l' f, In f (fm_union head_formats l l') <-> In f l \/ In f l') /\ (forall r, exists s, fm_write head_formats r = Ok s) /\ searches real_libs /\ ascii_right (lb_wd real_libs) /\ accepts_usual usual /\ proper_options real_libs CHeader head_opts fig_inputs /\ NoDup (map basename two_srcs) /\ (forall src src', In src two_srcs -> In src' two_srcs -> src <> out_path head_run src' /\ ~ reject_path head_run src' src) /\ isolated (command_fix head_formats CHeader) 2 true.
Proof.
  split.
  { assert (G : forall src tname content s, head_files src = Some content -> fm_source head_formats content = Ok (head_source s) ->
      target_file head_formats head_run src tname -> head_files tname = Some (u "T") ->
      good_source real_libs ex_readers head_formats CHeader usual head_mapping head_opts fig_inputs head_run head_files src).
    { intros src tname content s H1 H2 H3 H4. exists content, content, tname, (u "T"), head_target, (head_source s). split; [exact H1|]. split; [reflexivity|]. split; [exact H2|]. split; [exact H3|].
      split; [exact H4|]. split; [reflexivity|]. rewrite head_fields. cbn [fst]. split.
      { split; [|split; [reflexivity|split; [reflexivity|intros l f; symmetry; apply in_rev]]].
        - intros [|c t] K1 K2; [easy|]. cbn [real_libs with_searches lb_int]. unfold ascii_int. change (lb_dg real_libs) with ascii_digit in K2. now rewrite K2. }
      split.
      { split.
        - eexists. split; [reflexivity|]. intros k Hk Hp. split; [|split; [intros n _ _; unfold regex_ok; destruct (option_of _ _ _) as [[|? ?]|]; reflexivity || exact I|intros e x _; cbn [td_xpath head_target]; destruct (streq _ _); eexists; reflexivity]]. cbn in Hk.
          destruct Hk as [<-|[]]. repeat split; exact I.
        - intros _ f Hf.
          assert (E : exists d, tag_config_map (lb_sp real_libs) (rd_lb ex_readers) (lb_lower real_libs) (rd_compiles ex_readers) (lb_int real_libs) (@rev str)
             [(u "article", [(u "title", u ".//title")])] = Ok d) by (eexists; vm_compute; reflexivity).
          assert (R : forall l g, In g (@rev str l) <-> In g l) by (intros l g; symmetry; apply in_rev).
          destruct (C86_map (lb_sp real_libs) (rd_lb ex_readers) (lb_lower real_libs) (rd_compiles ex_readers) (lb_int real_libs) eq_refl eq_refl (@rev str)
             [(u "article", [(u "title", u ".//title")])] R) as [_ [G _]]. exact (G E f Hf). }
      split; [intros _ [X _]; now elim X|]. split; [|split; [discriminate|split; [intros e x; apply head_elems|]]].
      - reflexivity.
      - intros l Hl. right. vm_compute in Hl. injection Hl as <-. split; [discriminate|]. split; [|discriminate]. intros f [_ [[]|[<-|[]]]]. right. eexists. reflexivity. }
    intros src [<-|[<-|[]]].
    - apply (G _ (u "xml/a.jats") (u "A") "About stones"%string); try reflexivity. eexists _, _. repeat split.
    - apply (G _ (u "xml/b.jats") (u "B") "Other words"%string); try reflexivity. eexists _, _. repeat split. }
  split.
  { split; [|split; [|split]].
    - rewrite head_fields. intros f [<-|[]]. left. cbn. tauto.
    - intros f (_ & _ & [H|[<-|[]]]); [discriminate|]. split; [reflexivity|]. split; [reflexivity|discriminate].
    - intros n (f & _ & (_ & _ & [H|[<-|[]]]) & (m & [<-|[]] & [Hm|[]]) & _); [discriminate|]. cbn in Hm. intuition discriminate.
    - intros n []. }
  split; [exact prefix_lsm_ok|]. split; [exact C30_ex_ok|]. split; [intros l l' f; cbn [fm_union head_formats]; rewrite in_app_iff; tauto|]. split; [intros r; eexists; reflexivity|].
  split; [apply C87_searches; [exact prefix_lsm_ok|exact C30_ex_ok|reflexivity]|]. split; [intros c _; reflexivity|]. split; [intros n a H; exact H|].
  split; [split; [discriminate|split; discriminate]|]. split; [repeat constructor; cbn; intuition discriminate|]. split; [|right; now left].
  intros src src' H H'. destruct H as [<-|[<-|[]]], H' as [<-|[<-|[]]]; (split; [vm_compute; discriminate|intros (dir & [= <-] & _ & E); vm_compute in E; discriminate]).
Qed.
Print Assumptions C91_run.
Print Assumptions C91_others.
Print Assumptions C91_works.
Print Assumptions C91_text.
Print Assumptions C91_total.
