(** C100: the annotation commands as programs. *)
From Coq Require Import QArith.
From Verif Require Import Base ModelTags ProofTags ModelTokenize ModelXml ModelTei ModelTeiDoc SpecTeiRead SpecTeiWrite SpecTeiDoc ProofTeiDoc PropTeiDoc PropTeiRead PropTokenize
  ModelMapping PropMapping ModelTarget ModelFuzzyMatch PropFuzzyMatch ModelWordMatch PropWordMatch ModelFuzzySearch PropFuzzySearch ModelClusters PropClusters ModelJoined ModelPostAnnot PropPostAnnot
  ModelLineNumbers PropLineNumbers ModelExpand ModelSegmentation ModelReference PropReference PropReferenceDoc
  ModelSimpleMatch PropSimpleMatch ModelMatch PropMatch PropMatchRun ModelAnnotators PropAnnotators PropNames ModelCommands PropCommands PropSaves PropCommandRuns
  ModelTagConfigs PropTagConfigs PropTarget ModelTargets PropTargets ModelRuns PropTotal PropRuns ModelChecks PropChecks ModelSegChecks PropSegChecks
  ModelFixXml ModelPipeline PropPipeline ModelSource ModelFiles PropFiles ModelArgs PropArgs ModelIni RepoConfig PropIni PropShipped ModelMain.
Open Scope list_scope.
Open Scope nat_scope.

Section Main.
Variable m : main_libs.
Variable c : command.
Let a := ml_args m.
Let b := ml_libs m.

(* ---------------------------------------------------------------- *)
(** ** Specification: what a command line asks for *)
Definition nonempty (occ : occurrences) (n : string) : Prop := exists v, sets occ n v /\ v <> [].
(** the text of a file that is chosen by an option *)
Definition text_of (f : files) (occ : occurrences) (n default : string) (text : str) : Prop :=
  exists path content, chosen occ n (u default) itself path /\ f path = Some content /\ ml_text m content = Ok text.
Definition mapping_in (text : str) (xm : mapping) : Prop :=
  exists d sections, config_text (lb_sp b) (lb_lower b) text d sections /\
    Forall2 (fun s t => fst s = fst t /\ section_items (lb_lower b) d (snd s) (snd t)) sections xm.
Definition segments_in (text : str) (sc : seg_config) : Prop :=
  exists d sections own items, config_text (lb_sp b) (lb_lower b) text d sections /\ In (u "tags", own) sections /\ section_items (lb_lower b) d own items /\
    sc_mapping sc = map (fun kv => (fst kv, rd_order (ml_readers m) (comma_list (lb_sp b) (snd kv)))) items /\ sc_no_merge_references sc = false /\
    number_is (lb_lower b) (lb_int b) d sections (u "config") (lb_lower b (u "front_max_start_line_index")) 0%Z (sc_front_max sc) /\
    number_is (lb_lower b) (lb_int b) d sections (u "config") (lb_lower b (u "page_header_max_first_line_index")) 50%Z (sc_header_max sc).
(** the command line can be read, and so can the configuration files *)
Record ready (argv : list str) (f : files) (occ : occurrences) (cl : cloud) (xm : mapping) (sc : seg_config) : Prop := {
  rd_line : reads (ag_dg a) (command_decls a c) argv occ;
  rd_complete : complete (command_decls a c) occ;
  rd_source : nonempty occ "--source-base-path" \/ nonempty occ "--source-path";
  rd_cloud : ag_process_cloud a occ = Some cl;
  rd_mapping : exists text, text_of f occ "--xml-mapping-path" "config/xml-mapping.conf" text /\ mapping_in text xm;
  rd_segments : (c = CSegmentation /\ exists text, text_of f occ "--segmentation-config" "config/segmentation.conf" text /\ segments_in text sc)
                \/ (c <> CSegmentation /\ sc = mkSegConfig [] 0 0 false) }.
(** the sources: one that is named, or those that are found *)
Inductive sources (f : files) (occ : occurrences) : list str -> Prop :=
| sources_one p : sets occ "--source-path" p -> p <> [] -> sources f occ [p]
| sources_found base lim : ~ nonempty occ "--source-path" -> sets occ "--source-base-path" base -> base <> [] ->
    chosen occ "--limit" None (fun v x => exists z, ag_int a v = Some z /\ x = Some z) lim ->
    sources f occ (ml_find m (join_path base (filename_pattern c)) lim f).
(** those that are left to do: with [--resume] the ones that have no output *)
Definition to_do (f : files) (occ : occurrences) (l l' : list str) : Prop :=
  (~ gives occ "--resume" /\ l' = l) \/
  (gives occ "--resume" /\ exists out, sets occ "--output-path" out /\
     l' = filter (fun src => match f (join_path out (basename src)) with Some _ => false | None => true end) l).
(** the options of the run *)
Record asked (occ : occurrences) (cl : cloud) (xm : mapping) (sc : seg_config) (srcs : list str) (j : job) : Prop := {
  as_mapping : jb_mapping j = xm;
  as_options : jb_options j = options_of a c occ; (* C96_options *)
  as_segments : jb_segmentation j = sc;
  as_threshold : jb_threshold j = threshold_of a occ; (* C96_run_options *)
  as_run : jb_run j = run_options_of a occ; (* C96_run_options *)
  as_sources : jb_sources j = srcs;
  as_workers : jb_workers j = Nat.min (Z.to_nat (cl_workers cl)) (length srcs);
  as_shared : jb_shared j = true <-> ~ gives occ "--multi-processing";
  as_skip : jb_skip j = true <-> gives occ "--skip-errors" }.
Inductive starts (argv : list str) (f : files) : started -> Prop :=
| starts_stops : (forall occ cl xm sc, ~ ready argv f occ cl xm sc) -> starts argv f Stops
| starts_nothing occ cl xm sc l : ready argv f occ cl xm sc -> sources f occ l -> to_do f occ l [] -> starts argv f Nothing
| starts_local occ cl xm sc l l' j : ready argv f occ cl xm sc -> sources f occ l -> to_do f occ l l' -> l' <> [] ->
    cl_cloud cl = false -> (1 <= cl_workers cl)%Z -> asked occ cl xm sc l' j -> starts argv f (Local j)
| starts_beam occ cl xm sc l l' j : ready argv f occ cl xm sc -> sources f occ l -> to_do f occ l l' -> l' <> [] ->
    (cl_cloud cl = true \/ (cl_workers cl < 1)%Z) -> asked occ cl xm sc l' j -> starts argv f (Beam j).

(* ---------------------------------------------------------------- *)
(** ** Proofs *)
Hypothesis fresh : cloud_fresh a.
Hypothesis Hdg : ag_dg a 10%N = false /\ ag_dg a ch_dot = false.
Hypothesis Hreq : forall d, In d (ag_cloud a) -> dc_required d = false.
Hypothesis Hlower : forall s, s <> [] -> lb_lower b s <> [].

Lemma line_spec argv occ : parse_argv (ag_dg a) (command_decls a c) argv = Some occ <-> reads (ag_dg a) (command_decls a c) argv occ /\ complete (command_decls a c) occ.
Proof. apply C95_parse; [now apply C95_declared|exact Hdg]. Qed.
Section Parsed.
Variable argv : list str.
Variable occ : occurrences.
Hypothesis HR : reads (ag_dg a) (command_decls a c) argv occ.
Hypothesis HC : complete (command_decls a c) occ.
Lemma own_text n : In (text n) (base_decls a) -> is_value a c n (fun _ => true).
Proof. apply own_base; [exact fresh|reflexivity|reflexivity]. Qed.
Lemma cases n ok : is_value a c n ok -> last_value n occ = None /\ ~ gives occ n \/ exists v, last_value n occ = Some v /\ sets occ n v /\ ok v = true.
Proof. apply value_cases; [exact (reads_declared a c argv occ HR)|now apply C95_declared]. Qed.
Lemma nonempty_spec n : truthy (last_value n occ) = true <-> nonempty occ n.
Proof.
  unfold nonempty. split.
  - destruct (last_value n occ) as [[|x v]|] eqn:E; try discriminate. intros _. exists (x :: v). split; [now apply last_value_sets|discriminate].
  - intros (v & H & Hv). apply last_value_sets in H. rewrite H. now destruct v.
Qed.
Lemma source_spec : has_source occ = true <-> nonempty occ "--source-base-path" \/ nonempty occ "--source-path".
Proof. unfold has_source. now rewrite orb_true_iff, !nonempty_spec. Qed.
Lemma chosen_text n d path : is_value a c n (fun _ => true) -> chosen occ n d itself path <-> path = value_or n d occ.
Proof.
  intros K. unfold value_or. destruct (cases n _ K) as [[E G]|(v & E & S & _)]; rewrite E.
  - split; [|intros ->; now constructor]. intros [_|v x S _]; [reflexivity|]. apply last_value_sets in S. congruence.
  - split; [|intros ->; now apply chosen_value with v]. intros [G|v' x S' Hx]; [|apply last_value_sets in S'; unfold itself in Hx; congruence].
    exfalso. apply G. destruct S as (p & q & -> & _). unfold gives. rewrite map_app, in_app_iff. right. now left.
Qed.
Lemma config_spec {A} f n d (parse : str -> res A) (P : str -> A -> Prop) x : is_value a c n (fun _ => true) -> (forall text, parse text = Ok x <-> P text x) ->
  config_file m f (value_or n (u d) occ) parse = Some x <-> exists text, text_of f occ n d text /\ P text x.
Proof.
  intros K HP. unfold config_file, text_of. split.
  - intros H. destruct (f (value_or n (u d) occ)) as [content|] eqn:E1; [|discriminate]. destruct (ml_text m content) as [text|] eqn:E2; [|discriminate].
    destruct (parse text) as [y|] eqn:E3; [|discriminate]. injection H as ->. exists text. split; [|now apply HP]. exists (value_or n (u d) occ), content. split; [now apply chosen_text|]. now split.
  - intros (text & (path & content & H1 & H2 & H3) & H4). apply (chosen_text _ _ _ K) in H1. subst path. rewrite H2, H3. apply HP in H4. now rewrite H4.
Qed.
Ltac among := unfold base_decls, pipeline_decls; cbn [app In]; tauto.
Lemma mapping_spec f xm : mapping_of m occ f = Some xm <-> exists text, text_of f occ "--xml-mapping-path" "config/xml-mapping.conf" text /\ mapping_in text xm.
Proof.
  unfold mapping_of. change (default_config_path "xml-mapping.conf") with (u "config/xml-mapping.conf"). apply config_spec; [apply own_text; among|]. intros text. apply C98_mapping, Hlower.
Qed.
Lemma segmentation_spec f sc : segmentation_of m c occ f = Some sc <->
  (c = CSegmentation /\ exists text, text_of f occ "--segmentation-config" "config/segmentation.conf" text /\ segments_in text sc) \/ (c <> CSegmentation /\ sc = mkSegConfig [] 0 0 false).
Proof.
  assert (G : c = CSegmentation -> config_file m f (value_or "--segmentation-config" (u "config/segmentation.conf") occ)
    (parse_segmentation_config (lb_sp b) (lb_lower b) (lb_int b) (comma_list (lb_sp b)) (rd_order (ml_readers m))) = Some sc
    <-> exists text, text_of f occ "--segmentation-config" "config/segmentation.conf" text /\ segments_in text sc).
  { intros Ec. apply config_spec; [|intros text; apply C98_segmentation, Hlower]. apply own_value; [exact fresh|]. left. exists (ModelArgs.text "--segmentation-config"). rewrite Ec, !in_app_iff. cbn [main_decls checks_decls app In]. split; [tauto|split; reflexivity]. }
  unfold segmentation_of. destruct c eqn:Ec; try (split; [intros [= <-]; right; split; [discriminate|reflexivity]|intros [[[=] _]|[_ ->]]; reflexivity]).
  change (default_config_path "segmentation.conf") with (u "config/segmentation.conf"). eapply iff_trans; [exact (G eq_refl)|]. split; [intros H; left; now split|intros [[_ H]|[H _]]; [exact H|now destruct H]].
Qed.
Lemma limit_spec lim : chosen occ "--limit" None (fun v x => exists z, ag_int a v = Some z /\ x = Some z) lim <-> lim = limit_of m occ.
Proof.
  assert (K : is_value a c "--limit" (fun v => is_some (ag_int a v))) by (apply (own_base a c fresh _ _ (number a "--limit")); [reflexivity|reflexivity|among]).
  unfold limit_of. destruct (cases _ _ K) as [[E G]|(v & E & S & Hok)]; rewrite E.
  - split; [|intros ->; now constructor]. intros [_|v x S _]; [reflexivity|]. apply last_value_sets in S. congruence.
  - destruct (ag_int a v) as [z|] eqn:Ez; [|discriminate]. fold a. rewrite Ez. split; [|intros ->; apply chosen_value with v; [exact S|now exists z]].
    intros [G|v' x S' (z' & Hz & ->)]; [|apply last_value_sets in S'; congruence].
    exfalso. apply G. destruct S as (p & q & -> & _). unfold gives. rewrite map_app, in_app_iff. right. now left.
Qed.
Lemma sources_spec f l : nonempty occ "--source-base-path" \/ nonempty occ "--source-path" -> sources f occ l <-> l = sources_of m c occ f.
Proof.
  intros HS. unfold sources_of, source_list. split.
  - intros [p S Hp|base lim H1 H2 H3 H4].
    + apply last_value_sets in S. rewrite S. now destruct p.
    + assert (E : forall x y, last_value "--source-path" occ <> Some (x :: y)) by (intros x y E; apply H1; exists (x :: y); split; [now apply last_value_sets|discriminate]).
      apply limit_spec in H4. apply last_value_sets in H2. unfold value_or. rewrite H2, <- H4. destruct (last_value "--source-path" occ) as [[|x y]|]; try reflexivity. now destruct (E x y).
  - intros ->. destruct (last_value "--source-path" occ) as [[|x y]|] eqn:E.
    2:{ apply sources_one; [now apply last_value_sets|discriminate]. }
    all: assert (N : ~ nonempty occ "--source-path") by (intros (v & Hv & Hne); apply last_value_sets in Hv; congruence).
    all: destruct HS as [(base & Hb & Hne)|HS]; [|contradiction]; apply sources_found; [exact N| | |now apply limit_spec]; unfold value_or; rewrite (proj2 (last_value_sets _ _ _) Hb); assumption.
Qed.
Lemma output_spec out : sets occ "--output-path" out <-> out = ro_output (run_options_of a occ).
Proof.
  cbn [run_options_of ro_output]. unfold value_or. split; [intros H; apply last_value_sets in H; now rewrite H|intros ->].
  destruct (cases "--output-path" (fun _ => true)) as [[E G]|(v & E & S & _)]; [apply (own_base a c fresh _ _ (required "--output-path")); [reflexivity|reflexivity|among]| |now rewrite E].
  exfalso. apply G. apply (C95_required a c occ Hreq); [exact HC|]. cbn [In]. tauto.
Qed.
Lemma filter_without g f l : without_output g f l = filter (fun src => match f (g src) with Some _ => false | None => true end) l.
Proof. unfold without_output. induction l as [|x l IH]; [reflexivity|]. cbn [map combine filter snd]. unfold exists_file at 1. destruct (f (g x)); cbn [negb map fst]; now rewrite IH. Qed.
Lemma to_do_spec f l l' : to_do f occ l l' <-> l' = remaining (has_flag "--resume" occ) (ro_output (run_options_of a occ)) f l.
Proof.
  unfold to_do, remaining. destruct (has_flag "--resume" occ) eqn:E.
  - apply flag_spec in E. assert (Q : forall out, match l with [] => [] | _ => without_output (output_path out) f l end = filter (fun src => match f (join_path out (basename src)) with Some _ => false | None => true end) l).
    { intros out. destruct l; [reflexivity|]. apply filter_without. }
    rewrite Q. split; [intros [[G _]|(_ & out & S & ->)]; [contradiction|]; apply output_spec in S; now rewrite S|]. intros ->. right. split; [exact E|]. eexists. split; [now apply output_spec|reflexivity].
  - assert (G : ~ gives occ "--resume") by (intros G; apply flag_spec in G; congruence). assert (Q : match l with [] => [] | _ => l end = l) by now destruct l. rewrite Q.
    split; [intros [[_ H]|[H _]]; [exact H|contradiction]|]. intros ->. left. now split.
Qed.
Lemma asked_spec cl xm sc srcs j : asked occ cl xm sc srcs j <-> j = mkJob xm (options_of a c occ) sc (threshold_of a occ) (run_options_of a occ) srcs
  (worker_count (Z.to_nat (cl_workers cl)) srcs) (negb (has_flag "--multi-processing" occ)) (has_flag "--skip-errors" occ).
Proof.
  split.
  - intros [H1 H2 H3 H4 H5 H6 H7 H8 H9]. destruct j as [x1 x2 x3 x4 x5 x6 x7 x8 x9]. cbn [jb_mapping jb_options jb_segmentation jb_threshold jb_run jb_sources jb_workers jb_shared jb_skip] in *. subst x1 x2 x3 x4 x5 x6 x7.
    f_equal; apply eq_true_iff_eq; [rewrite negb_true_iff, <- not_true_iff_false, flag_spec; exact H8|rewrite flag_spec; exact H9].
  - intros ->. constructor; try reflexivity; cbn [jb_shared jb_skip]; [now rewrite negb_true_iff, <- not_true_iff_false, flag_spec|apply flag_spec].
Qed.
End Parsed.
Lemma ready_spec argv f occ cl xm sc : ready argv f occ cl xm sc <->
  parse_argv (ag_dg a) (command_decls a c) argv = Some occ /\ has_source occ = true /\ ag_process_cloud a occ = Some cl /\ mapping_of m occ f = Some xm /\ segmentation_of m c occ f = Some sc.
Proof.
  split.
  - intros [H1 H2 H3 H4 H5 H6]. split; [now apply line_spec|]. split; [now apply source_spec|]. split; [exact H4|]. split; [now apply (mapping_spec argv)|now apply (segmentation_spec argv)].
  - intros (H1 & H3 & H4 & H5 & H6). apply line_spec in H1 as [H1 H2]. constructor; [exact H1|exact H2|now apply source_spec|exact H4|now apply (mapping_spec argv)|now apply (segmentation_spec argv)].
Qed.
(** What a program does with its command line: it stops, or there is nothing to do, or it
    runs with the options, configuration and sources that the command line asks for. *)
Theorem C100_start : forall argv f r, start m c argv f = r <-> starts argv f r.
Proof.
  intros argv f r.
  assert (Fwd : starts argv f (start m c argv f)).
  { unfold start. fold a. destruct (parse_argv (ag_dg a) (command_decls a c) argv) as [occ|] eqn:E1; [|apply starts_stops; intros occ cl xm sc H; apply ready_spec in H as [H _]; congruence].
    destruct (has_source occ) eqn:E2; cbn [negb]; [|apply starts_stops; intros occ' cl xm sc H; apply ready_spec in H as (H & H' & _); congruence].
    destruct (ag_process_cloud a occ) as [cl|] eqn:E3; [|apply starts_stops; intros occ' cl xm sc H; apply ready_spec in H as (H & _ & H' & _); congruence].
    destruct (mapping_of m occ f) as [xm|] eqn:E4; [|apply starts_stops; intros occ' cl' xm sc H; apply ready_spec in H as (H & _ & _ & H' & _); congruence].
    destruct (segmentation_of m c occ f) as [sc|] eqn:E5; [|apply starts_stops; intros occ' cl' xm' sc H; apply ready_spec in H as (H & _ & _ & _ & H'); congruence].
    assert (R : ready argv f occ cl xm sc) by (apply ready_spec; auto). pose proof (rd_line _ _ _ _ _ _ R) as R1. pose proof (rd_complete _ _ _ _ _ _ R) as R2. pose proof (rd_source _ _ _ _ _ _ R) as R3.
    assert (S : sources f occ (sources_of m c occ f)) by (apply (sources_spec argv occ R1 R2); [exact R3|reflexivity]).
    assert (T : to_do f occ (sources_of m c occ f) (remaining (has_flag "--resume" occ) (ro_output (run_options_of a occ)) f (sources_of m c occ f))) by (apply (to_do_spec argv occ R1 R2); reflexivity).
    destruct (remaining (has_flag "--resume" occ) (ro_output (run_options_of a occ)) f (sources_of m c occ f)) as [|x l]; [exact (starts_nothing _ _ _ _ _ _ _ R S T)|].
    assert (A : asked occ cl xm sc (x :: l) (mkJob xm (options_of a c occ) sc (threshold_of a occ) (run_options_of a occ) (x :: l)
      (worker_count (Z.to_nat (cl_workers cl)) (x :: l)) (negb (has_flag "--multi-processing" occ)) (has_flag "--skip-errors" occ))) by now apply asked_spec.
    assert (Nl : x :: l <> []) by discriminate.
    destruct (cl_cloud cl) eqn:E6; cbn [negb andb]; [exact (starts_beam _ _ _ _ _ _ _ _ _ R S T Nl (or_introl E6) A)|].
    destruct (Z.leb_spec 1 (cl_workers cl)) as [E7|E7]; [exact (starts_local _ _ _ _ _ _ _ _ _ R S T Nl E6 E7 A)|exact (starts_beam _ _ _ _ _ _ _ _ _ R S T Nl (or_intror E7) A)]. }
  split; [intros <-; exact Fwd|]. intros H.
  assert (U : forall occ cl xm sc l l', ready argv f occ cl xm sc -> sources f occ l -> to_do f occ l l' ->
    start m c argv f = match l' with [] => Nothing | _ =>
      let j := mkJob xm (options_of a c occ) sc (threshold_of a occ) (run_options_of a occ) l' (worker_count (Z.to_nat (cl_workers cl)) l') (negb (has_flag "--multi-processing" occ)) (has_flag "--skip-errors" occ) in
      if negb (cl_cloud cl) && (1 <=? cl_workers cl)%Z then Local j else Beam j end).
  { intros occ cl xm sc l l' R S T. pose proof (rd_line _ _ _ _ _ _ R) as R1. pose proof (rd_complete _ _ _ _ _ _ R) as R2. pose proof (rd_source _ _ _ _ _ _ R) as R3.
    apply (sources_spec argv occ R1 R2 _ _ R3) in S. subst l. apply (to_do_spec argv occ R1 R2) in T. apply ready_spec in R as (Q1 & Q2 & Q3 & Q4 & Q5).
    unfold start. fold a. rewrite Q1, Q2. cbn [negb]. rewrite Q3, Q4, Q5, <- T. now destruct l'. }
  destruct H as [H|occ cl xm sc l R S T|occ cl xm sc l l' j R S T Nl E1 E2 A|occ cl xm sc l l' j R S T Nl E1 A].
  - inversion Fwd as [G E|occ cl xm sc l R S T E|occ cl xm sc l l' j R S T Nl E1 E2 A E|occ cl xm sc l l' j R S T Nl E1 A E]; [reflexivity| | |]; exfalso; exact (H _ _ _ _ R).
  - exact (U _ _ _ _ _ _ R S T).
  - rewrite (U _ _ _ _ _ _ R S T). destruct l' as [|x l']; [easy|]. cbv zeta. rewrite E1, (proj2 (Z.leb_le _ _) E2). cbn [negb andb]. f_equal. symmetry. now apply asked_spec in A.
  - rewrite (U _ _ _ _ _ _ R S T). destruct l' as [|x l']; [easy|]. cbv zeta.
    assert (E : negb (cl_cloud cl) && (1 <=? cl_workers cl)%Z = false) by (destruct E1 as [-> |E1]; [reflexivity|]; rewrite (proj2 (Z.leb_gt _ _) E1); apply andb_false_r).
    rewrite E. f_equal. symmetry. now apply asked_spec in A.
Qed.

(* ---------------------------------------------------------------- *)
(** ** Specification: what the program leaves *)
(** the files that are found for the pattern are different ones in the directory *)
Definition finds_names (f : files) (occ : occurrences) : Prop := forall base lim, sets occ "--source-base-path" base ->
  exists names, ml_find m (join_path base (filename_pattern c)) lim f = map (join_path base) names /\ NoDup names /\ Forall slash_free names.
(** no source would be written to *)
Definition elsewhere (ro : run_options) (l : list str) : Prop := forall src, In src l -> src <> out_path ro src /\ ~ reject_path ro src src.
Section Left.
Variable fuel : nat.
Variable j : job.
Variable f f1 : files.
Let ro := jb_run j.
Let annotates := annotated (job_libs m j) (ml_readers m) (ml_formats m) c (ml_upper m) (ml_lower m) (jb_mapping j) (jb_options j) (job_inputs m j fuel) ro f.
Let accepts := accepted (job_libs m j) (ml_formats m) c (job_inputs m j fuel) ro.
Let becomes := saves (job_libs m j) (ml_formats m) c (ml_node_ok m) (jb_mapping j) (jb_options j).
(** the source has been annotated and accepted, and is saved *)
Definition left_saved (src : str) : Prop := exists ts root d s, annotates src ts root d /\ accepts ts d /\ becomes root d s /\
  f1 (out_path ro src) = Some s /\ forall p, reject_path ro src p -> p <> out_path ro src -> f1 p = f p.
(** it has been annotated and not accepted, and is saved elsewhere, if there is a place *)
Definition left_rejected (src : str) : Prop := exists ts root d, annotates src ts root d /\ ~ accepts ts d /\
  (~ reject_path ro src (out_path ro src) -> f1 (out_path ro src) = f (out_path ro src)) /\
  forall p, reject_path ro src p -> exists s, becomes root d s /\ f1 p = Some s.
Definition left_alone (src : str) : Prop := f1 (out_path ro src) = f (out_path ro src) /\ forall p, reject_path ro src p -> f1 p = f p.
End Left.

Hypothesis Hlsm : lsm_ok (fm_lsm (ml_formats m)).
Hypothesis Hwords : words_ok (fm_words (ml_formats m)).
Hypothesis Hunion : forall l l' f, In f (fm_union (ml_formats m) l l') <-> In f l \/ In f l'.

Lemma sources_names f occ l : sources f occ l -> finds_names f occ -> NoDup (map basename l).
Proof.
  intros [p _ _|base lim _ H _ _] Hf; [repeat constructor; easy|]. destruct (Hf base lim H) as (names & -> & N & F). rewrite map_map.
  assert (E : map (fun x => basename (join_path base x)) names = names); [|now rewrite E]. clear - F. induction F as [|x l Hx F IH]; [reflexivity|]. cbn [map]. rewrite IH. f_equal. now apply basename_join.
Qed.
Lemma to_do_sub f occ l l' : to_do f occ l l' -> sub_list l l'.
Proof.
  assert (G : forall k (l : list str), sub_list l (filter k l)) by (intros k; induction l0 as [|x l0 IH]; cbn [filter]; [constructor|destruct (k x); now constructor]).
  intros [[_ ->]|(_ & out & _ & ->)]; [|apply G]. induction l; now constructor.
Qed.
Lemma path_name ro src p : p = out_path ro src \/ reject_path ro src p -> basename p = basename src.
Proof. intros [-> |(dir & _ & _ & ->)]; apply basename_join, basename_free. Qed.
Lemma elsewhere_all ro l : elsewhere ro l -> forall src src', In src l -> In src' l -> src <> out_path ro src' /\ ~ reject_path ro src' src.
Proof.
  intros H src src' Hs Hs'. destruct (H src Hs) as [H1 H2]. split.
  - intros E. apply H1. assert (B : basename src = basename src') by (apply (path_name ro); now left). unfold out_path in *. now rewrite B.
  - intros E. apply H2. assert (B : basename src = basename src') by (apply (path_name ro); now right). destruct E as (dir & E1 & E2 & E3). exists dir. now rewrite B.
Qed.
Definition failed_at (w : world) (n : nat) : bool := match w_place w n with Done e => e | _ => false end.
Definition failed_of (w : world) (l : list str) : list str := map snd (filter (fun ns => failed_at w (fst ns)) (combine (seq 0 (length l)) l)).
Lemma in_failed w l src : In src (failed_of w l) <-> exists n, nth_error l n = Some src /\ failed_at w n = true.
Proof.
  unfold failed_of. assert (G : forall k n s, In (n, s) (combine (seq k (length l)) l) <-> exists i, n = k + i /\ nth_error l i = Some s).
  { induction l as [|x l IH]; intros k n s; cbn [length seq combine In]; [split; [easy|intros ([|i] & _ & H); discriminate]|]. rewrite IH. split.
    - intros [[= <- <-]|(i & -> & H)]; [exists 0; split; [lia|reflexivity]|exists (S i); split; [lia|exact H]].
    - intros ([|i] & -> & H); [left; injection H as ->; f_equal; lia|right; exists i; split; [lia|exact H]]. }
  rewrite in_map_iff. split.
  - intros ([n s] & <- & H). apply filter_In in H as [H1 H2]. apply G in H1 as (i & -> & H1). now exists i.
  - intros (n & H1 & H2). exists (n, src). split; [reflexivity|]. apply filter_In. split; [|exact H2]. apply G. now exists n.
Qed.
Lemma run_fails_spec l (ts : list task) skip w : length ts = length l -> run_fails ts skip w = true <-> skip = false /\ failed_of w l <> [].
Proof.
  intros E. unfold run_fails. rewrite andb_true_iff, negb_true_iff, existsb_exists, E. split.
  - intros (H1 & n & Hn & H2). split; [exact H1|]. apply in_seq in Hn. destruct (nth_error l n) as [s|] eqn:En; [|apply nth_error_None in En; lia].
    assert (In s (failed_of w l)) by (apply in_failed; now exists n). destruct (failed_of w l); [easy|discriminate].
  - intros (H1 & H2). split; [exact H1|]. destruct (failed_of w l) as [|s r] eqn:Ef; [easy|]. assert (In s (failed_of w l)) by (rewrite Ef; now left). apply in_failed in H as (n & Hn & Hf).
    exists n. split; [|exact Hf]. apply in_seq. assert (n < length l) by (apply nth_error_Some; congruence). lia.
Qed.
(** A run on the local computer: each source that is left to do is saved, rejected or has
    failed; other files stay as they are, with [--resume] the outputs that were there; the
    program ends with an exception if a source has failed, without [--skip-errors]. *)
Theorem C100_run : forall argv f occ cl xm sc l l' j fuel f1 fails,
  ready argv f occ cl xm sc -> sources f occ l -> to_do f occ l l' -> l' <> [] -> cl_cloud cl = false -> (1 <= cl_workers cl)%Z -> asked occ cl xm sc l' j ->
  finds_names f occ -> elsewhere (jb_run j) l -> program m c fuel argv f f1 fails ->
  exists failed, incl failed l' /\ (fails = true <-> ~ gives occ "--skip-errors" /\ failed <> []) /\
    (forall src, In src l' -> (~ In src failed /\ (left_saved fuel j f f1 src \/ left_rejected fuel j f f1 src)) \/ (In src failed /\ left_alone j f f1 src)) /\
    (forall src, In src l -> ~ In src l' -> gives occ "--resume" /\ f (out_path (jb_run j) src) <> None /\ left_alone j f f1 src) /\
    (forall p, (forall src, In src l' -> p <> out_path (jb_run j) src /\ ~ reject_path (jb_run j) src p) -> f1 p = f p).
Proof.
  intros argv f occ cl xm sc l l' j fuel f1 fails R S T Nl E1 E2 A Hfind Hels P.
  pose proof (proj2 (C100_start argv f (Local j)) (starts_local argv f occ cl xm sc l l' j R S T Nl E1 E2 A)) as St.
  destruct P as [P|P|j' k w P Hk Hf]; try congruence. assert (j' = j) as -> by congruence. clear P.
  pose proof (sources_names f occ l S Hfind) as Nd. pose proof (to_do_sub f occ l l' T) as Sub. pose proof (sub_list_NoDup basename l l' Sub Nd) as Nd'.
  assert (Src : forall src src', In src l' -> In src' l' -> src <> out_path (jb_run j) src' /\ ~ reject_path (jb_run j) src' src).
  { apply elsewhere_all. intros src Hs. apply Hels. eapply sub_list_In; eassumption. }
  pose proof (as_sources _ _ _ _ _ _ A) as El. pose proof (as_run _ _ _ _ _ _ A) as Er.
  unfold job_tasks in *. unfold job_steps in Hk. rewrite El in *.
  assert (Oth : forall p, (forall src, In src l' -> p <> out_path (jb_run j) src /\ ~ reject_path (jb_run j) src p) -> w_files w p = f p).
  { intros p Hp. eapply C91_others; [exact Nd'|exact Src|exact Hk|exact Hp]. }
  exists (failed_of w l'). split; [intros src Hs; apply in_failed in Hs as (n & Hn & _); eapply nth_error_In; exact Hn|]. split; [|split; [|split; [|exact Oth]]].
  - rewrite (run_fails_spec l') by (unfold tasks_of; apply map_length). pose proof (as_skip _ _ _ _ _ _ A) as Sk. rewrite <- Sk, not_true_iff_false. reflexivity.
  - intros src Hs. apply In_nth_error in Hs as [n Hn].
    assert (U : In src (failed_of w l') <-> failed_at w n = true).
    { rewrite in_failed. split; [|intros H; now exists n]. intros (n' & Hn' & H). assert (n' = n); [|now subst].
      apply (proj1 (NoDup_nth_error (map basename l')) Nd'); [rewrite map_length; apply nth_error_Some; congruence|]. now rewrite !nth_error_map, Hn, Hn'. }
    rewrite U. unfold failed_at.
    destruct (C91_run _ _ _ _ _ _ _ _ _ _ _ _ Hlsm Hwords Hunion _ _ _ Nd' Src k w n src Hk Hf Hn) as [(ts & root & d & s & H1 & H2 & H3 & H4 & H5 & H6)|[(ts & root & d & H1 & H2 & H4 & H5 & H6)|(H4 & H5 & H6)]]; rewrite H4.
    + left. split; [discriminate|]. left. exists ts, root, d, s. repeat (split; [assumption|]). exact H6.
    + left. split; [discriminate|]. right. exists ts, root, d. repeat (split; [assumption|]). exact H6.
    + right. split; [reflexivity|]. now split.
  - intros src Hs Hn. destruct T as [[_ ->]|(G & out & So & ->)]; [contradiction|]. split; [exact G|].
    assert (Eo : out = ro_output (jb_run j)) by (rewrite Er; apply (output_spec argv occ (rd_line _ _ _ _ _ _ R) (rd_complete _ _ _ _ _ _ R)), So).
    split; [intros Q; apply Hn, filter_In; split; [exact Hs|]; unfold out_path in Q; now rewrite Eo, Q|].
    assert (D : forall p, p = out_path (jb_run j) src \/ reject_path (jb_run j) src p -> w_files w p = f p).
    { intros p Hp. apply Oth. intros src' Hs'. assert (B : basename p <> basename src').
      { rewrite (path_name _ _ _ Hp). intros B. apply Hn. assert (src = src'); [|now subst]. apply filter_In in Hs' as [Hs' _]. revert B Hs Hs' Nd. clear. induction l as [|x l IH]; [easy|]. cbn [map In]. intros B [<-|H] [<-|H'] N; inversion N as [|? ? N1 N2]; subst.
        - reflexivity.
        - exfalso. apply N1. rewrite B. now apply in_map.
        - exfalso. apply N1. rewrite <- B. now apply in_map.
        - now apply IH. }
      split; intros Q; apply B; apply (path_name (jb_run j)); [now left|now right]. }
    split; [apply D; now left|]. intros p Hp. apply D. now right.
Qed.

(* ---------------------------------------------------------------- *)
(** ** Every program ends, and always with the same files *)
(** the files that are found have different names, and no source is where its output goes *)
Definition well_placed (argv : list str) (f : files) : Prop := forall occ, reads (ag_dg a) (command_decls a c) argv occ ->
  finds_names f occ /\ forall l, sources f occ l -> elsewhere (run_options_of a occ) l.
Lemma job_apart argv f j : well_placed argv f -> starts argv f (Local j) ->
  apart (job_tasks j) /\ sources_kept (job_tasks j) /\ 0 < jb_workers j.
Proof.
  intros W S. inversion S as [| |occ cl xm sc l l' j' R So T Nl E1 E2 A|]; subst. destruct (W occ (rd_line _ _ _ _ _ _ R)) as [W1 W2]. specialize (W2 l So).
  pose proof (to_do_sub f occ l l' T) as Sub. unfold job_tasks. rewrite (as_sources _ _ _ _ _ _ A), (as_run _ _ _ _ _ _ A). split; [|split].
  - apply tasks_apart. exact (sub_list_NoDup basename l l' Sub (sources_names f occ l So W1)).
  - apply tasks_sources, elsewhere_all. intros src Hs. apply W2. eapply sub_list_In; eassumption.
  - rewrite (as_workers _ _ _ _ _ _ A). destruct l'; [easy|]. cbn [length]. lia.
Qed.
(** However the workers take turns, a run has a last step, and cannot stop before its end. *)
(** the matcher with blocks accepts what is good enough for the threshold that the command line gives *)
Theorem C100_threshold : forall occ cl xm sc l j fuel fm o previous x,
  asked occ cl xm sc l j -> PropFuzzyMatch.valid (f_a fm) (f_b fm) (f_blocks fm) -> junk_total (f_junk fm) ->
  match o with Some f => PropFuzzyMatch.valid (f_a f) (f_b f) (f_blocks f) /\ junk_total (f_junk f) | None => True end ->
  exists r g ar no, ratio fm = Ok r /\ b_gap_ratio fm = Ok g /\ a_ratio fm = Ok ar /\
    match o with Some f => exists nr, ratio f = Ok nr /\ no = Some nr | None => no = None end /\
    (in_seq_filter (job_inputs m j fuel) fm o previous = Ok x -> (x = true <-> good_match (threshold_of a occ) 5 50 (match_count fm) r g ar no previous)) /\
    (in_choice_filter (job_inputs m j fuel) fm o previous = Ok x -> (x = true <-> good_match (threshold_of a occ) 1 100 (match_count fm) r g ar no previous)).
Proof.
  intros occ cl xm sc l j fuel fm o previous x A Hv Hj Ho. unfold job_inputs. cbn [in_seq_filter in_choice_filter]. rewrite (as_threshold _ _ _ _ _ _ A).
  destruct (default_filter_total (threshold_of a occ) 5 50 fm o previous (conj Hv Hj) Ho) as [b1 E1]. destruct (default_filter_total (threshold_of a occ) 1 100 fm o previous (conj Hv Hj) Ho) as [b2 E2].
  destruct (C74_filter _ _ _ _ _ _ _ E1 Hv Hj Ho) as (r & g & ar & no & R1 & R2 & R3 & R4 & R5). destruct (C74_filter _ _ _ _ _ _ _ E2 Hv Hj Ho) as (r' & g' & ar' & no' & R1' & R2' & R3' & R4' & R5').
  rewrite R1 in R1'. injection R1' as <-. rewrite R2 in R2'. injection R2' as <-. rewrite R3 in R3'. injection R3' as <-.
  assert (no' = no) as -> by (destruct o; [destruct R4 as (n1 & Q1 & ->), R4' as (n2 & Q2 & ->); congruence|congruence]).
  exists r, g, ar, no. split; [exact R1|]. split; [exact R2|]. split; [exact R3|]. split; [exact R4|]. split; intros E.
  - rewrite E1 in E. injection E as <-. exact R5.
  - rewrite E2 in E. injection E as <-. exact R5'.
Qed.
Theorem C100_ends : forall argv f fuel, well_placed argv f ->
  (forall j, starts argv f (Local j) -> exists n, forall k w, job_steps m c j fuel f k (initial (job_tasks j) f) w ->
     k <= n /\ (finished (job_tasks j) w \/ exists w', job_steps m c j fuel f (S k) (initial (job_tasks j) f) w')) /\
  ((forall j, ~ starts argv f (Beam j)) -> exists f1 fails, program m c fuel argv f f1 fails).
Proof.
  intros argv f fuel W.
  assert (B : forall j, starts argv f (Local j) -> exists n, forall k w, job_steps m c j fuel f k (initial (job_tasks j) f) w ->
     k <= n /\ (finished (job_tasks j) w \/ exists w', job_steps m c j fuel f (S k) (initial (job_tasks j) f) w')).
  { intros j S. destruct (job_apart argv f j W S) as (A1 & A2 & A3). eexists. intros k w Hk. unfold job_steps, command_steps in *. fold (job_tasks j) in *. split; [eapply C43_ends; eassumption|].
    destruct (C43_progress _ _ _ _ _ _ A1 A2 k w A3 Hk) as [Hf|[w' Hw]]; [now left|]. right. exists w'. econstructor; eassumption. }
  split; [exact B|]. intros NB. destruct (start m c argv f) as [| |j|j] eqn:E.
  - exists f, true. now constructor.
  - exists f, false. now constructor.
  - exfalso. apply (NB j). now apply C100_start.
  - destruct (B j) as [n Hn]; [now apply C100_start|].
    assert (G : forall d k w, n - k <= d -> job_steps m c j fuel f k (initial (job_tasks j) f) w -> exists k' w', job_steps m c j fuel f k' (initial (job_tasks j) f) w' /\ finished (job_tasks j) w').
    { induction d as [|d IH]; intros k w Hd Hk; destruct (Hn k w Hk) as [H1 [H2|[w' H2]]]; eauto.
      - destruct (Hn _ _ H2) as [H3 _]. lia.
      - apply (IH (S k) w'); [lia|exact H2]. }
    destruct (G n 0 (initial (job_tasks j) f)) as (k & w & Hk & Hf); [lia|constructor|]. exists (w_files w), (run_fails (job_tasks j) (jb_skip j) w). econstructor; eassumption.
Qed.
(** Two runs of a program leave the same files, if no two threads fix sources in the same
    directory. *)
Theorem C100_same : forall argv f fuel f1 fails1 f2 fails2, well_placed argv f ->
  (forall j, starts argv f (Local j) -> isolated (command_fix (ml_formats m) c) (jb_workers j) (jb_shared j)) ->
  program m c fuel argv f f1 fails1 -> program m c fuel argv f f2 fails2 -> same_files f1 f2 /\ fails1 = fails2.
Proof.
  intros argv f fuel f1 fails1 f2 fails2 W Hiso P1 P2.
  destruct P1 as [P1|P1|j1 k1 w1 P1 Hk1 Hf1], P2 as [P2|P2|j2 k2 w2 P2 Hk2 Hf2]; try congruence; try (split; [intros p|]; reflexivity).
  assert (j2 = j1) as -> by congruence. assert (S : starts argv f (Local j1)) by now apply C100_start.
  destruct (job_apart argv f j1 W S) as (A1 & A2 & _). specialize (Hiso j1 S). unfold job_steps, command_steps in *. fold (job_tasks j1) in *. split.
  - destruct (C43_isolated _ _ _ _ _ _ A1 A2 k1 w1 Hiso Hk1 Hf1) as [F1 _]. destruct (C43_isolated _ _ _ _ _ _ A1 A2 k2 w2 Hiso Hk2 Hf2) as [F2 _].
    intros p. now rewrite F1, F2.
  - rewrite (C45_run _ _ _ _ _ _ A1 A2 k1 w1 _ Hiso Hk1 Hf1), (C45_run _ _ _ _ _ _ A1 A2 k2 w2 _ Hiso Hk2 Hf2). reflexivity.
Qed.

(* ---------------------------------------------------------------- *)
(** ** The shipped configuration *)
(** the files of the repository at their places *)
Definition shipped_config (f : files) : Prop :=
  (exists content, f (u "config/xml-mapping.conf") = Some content /\ ml_text m content = Ok xml_mapping_conf) /\
  (c = CSegmentation -> exists content, f (u "config/segmentation.conf") = Some content /\ ml_text m content = Ok segmentation_conf).
(** no other configuration, fields or checks are asked for *)
Definition usual_line (occ : occurrences) : Prop :=
  (forall n, In n ["--xml-mapping-path"; "--segmentation-config"; "--xml-mapping-overrides"; "--fields"; "--require-matching-fields"; "--required-fields"]%string -> ~ gives occ n) /\
  (last_of occ "--use-line-number-annotator" "--no-line-number-annotator" -> ~ gives occ "--min-line-number-ratio" /\ ~ gives occ "--min-line-numbers-per-page") /\
  (forall v q, sets occ "--matcher-score-threshold" v -> ag_float a v = Some q -> (0 < q)%Q).
(** the source can be read and has elements that can be loaded; its target is an article *)
Definition fine_source (ro : run_options) (f : files) (src : str) : Prop :=
  exists content final path tcontent t root,
    f src = Some content /\ prepared (ml_formats m) c content final /\ fm_source (ml_formats m) final = Ok root /\
    target_file (ml_formats m) ro src path /\ f path = Some tcontent /\ fm_target (ml_formats m) tcontent = Ok t /\
    td_tag t = u "article" /\ reads_shipped b (ml_readers m) t /\
    forallb loadable (find_all (container c) root) = true /\ find_all (container c) root <> [] /\
    (forall e x, In e (find_all (container c) root) -> below e x -> plain_elem (ml_node_ok m) x).
(** the libraries *)
Record usual_libs : Prop := {
  ul_args : forall x, (33 <= x <= 126)%N -> ag_sp a x = false;
  ul_order : forall l, same_set (ag_order a l) l;
  ul_space : usual_space (lb_sp b);
  ul_lower : usual_lower (lb_lower b);
  ul_readers : usual_readers b (ml_readers m);
  ul_words : ascii_right (lb_wd b);
  ul_nodes : accepts_usual (ml_node_ok m);
  ul_regexes : c = CReference -> forall t, In t idno_sub_tags -> dict_get t (lb_ref_regexes b) <> None;
  ul_write : forall r, exists s, fm_write (ml_formats m) r = Ok s }.
Lemma default_names : forall f, In f (default_fields c) -> In f (map fst article) \/ plain_field f.
Proof.
  assert (E : forallb (fun f => mem f (map fst article)) (default_fields c) = true) by (destruct c; vm_compute; reflexivity).
  rewrite forallb_forall in E. intros f H. left. now apply mem_spec, E.
Qed.

Lemma shipped_good_names b' o i : o_overrides o = [] -> (forall f, In f (o_fields o) -> In f (default_fields c)) ->
  (forall n, In n (map fst (sc_mapping (in_segmentation i))) -> In n (map fst segment_options)) -> good_names b' c [(u "article", article)] o i.
Proof.
  intros Ho Hf Hn. assert (GO : forall key, given_option [(u "article", article)] o key -> In key (map fst article)) by (intros key; exact (section_given _ _ _ _ Ho)).
  split; [|split; [|split]].
  - intros f H. right. apply (section_fields _ _ _ _ _ Ho) in H as [H|H]; [now apply shipped_plain|]. destruct (default_names _ (Hf _ H)) as [G|G]; [now apply shipped_plain|exact G].
  - intros f (P & G & _). destruct (shipped_names f (GO _ G) P) as (X1 & X2 & X3). auto.
  - intros k (f & P & (Pf & _) & G & _). apply GO in G. destruct (shipped_sub_names f k Pf P G) as (X1 & X2 & X3). auto.
  - intros k H. destruct (segment_name_ok _ (Hn _ H)) as (X1 & X2 & X3). split; [exact X1|]. split; [exact X2|]. right. now right.
Qed.
Lemma not_given occ n : ~ gives occ n -> last_value n occ = None.
Proof. intros H. destruct (last_value n occ) as [v|] eqn:E; [|reflexivity]. exfalso. apply H. apply last_value_sets in E as (p & q & -> & _). unfold gives. rewrite map_app, in_app_iff. right. now left. Qed.
(** With the configuration of the repository and readable sources the program saves all of
    them, if there is fuel enough. *)
Theorem C100_shipped : forall argv f occ cl l l',
  usual_libs -> shipped_config f -> reads (ag_dg a) (command_decls a c) argv occ -> complete (command_decls a c) occ -> usual_line occ ->
  nonempty occ "--source-base-path" \/ nonempty occ "--source-path" ->
  ag_process_cloud a occ = Some cl -> cl_cloud cl = false -> (1 <= cl_workers cl)%Z ->
  (c = CFigure \/ c = CFulltext -> gives occ "--multi-processing" \/ cl_workers cl = 1%Z) ->
  sources f occ l -> to_do f occ l l' -> finds_names f occ -> elsewhere (run_options_of a occ) l ->
  (forall src, In src l' -> fine_source (run_options_of a occ) f src) ->
  exists n, forall fuel f1 fails, n <= fuel -> program m c fuel argv f f1 fails ->
    fails = false /\
    (l' = [] \/ exists j, starts argv f (Local j) /\ jb_sources j = l' /\ forall src, In src l' -> left_saved fuel j f f1 src) /\
    forall src, In src l' -> f1 (out_path (run_options_of a occ) src) <> None.
Proof.
  intros argv f occ cl l l' U (C1 & C2) R1 R2 (L1 & L2 & L3) HS Hcl E1 E2 Hiso S T Hfind Hels Hfine.
  pose proof (proj2 (line_spec argv occ) (conj R1 R2)) as Parse.
  destruct (C96_options a c (ul_args U) (ul_order U) fresh argv occ Parse Hdg) as (O1 & _ & O3 & _ & _ & _ & _ & _ & O9 & _ & O11 & O12 & _). cbv zeta in *.
  destruct (C96_run_options a c fresh argv occ Parse Hdg Hreq) as (_ & _ & _ & _ & Q5 & Q6 & Q7).
  assert (Ho : o_overrides (options_of a c occ) = []).
  { destruct O3 as [_|v d Hv _]; [reflexivity|]. exfalso. apply (L1 "--xml-mapping-overrides"%string); [cbn [In]; tauto|]. destruct Hv as (p & q & -> & _). unfold gives. rewrite map_app, in_app_iff. right. now left. }
  assert (SG : forall n v, sets occ n v -> gives occ n) by (intros n v (p & q & E & _); unfold gives; rewrite E, map_app, in_app_iff; right; now left).
  assert (Hof : forall g, In g (o_fields (options_of a c occ)) -> In g (default_fields c)).
  { destruct O1 as [[_ H]|(v & H & _)]; [intros g; apply H|]. exfalso. apply (L1 "--fields"%string); [cbn [In]; tauto|]. exact (SG _ _ H). }
  assert (Hth : (0 < threshold_of a occ)%Q) by (destruct Q7 as [_|v q Hv Hq]; [reflexivity|exact (L3 v q Hv Hq)]).
  assert (Hm5 : ro_matching (run_options_of a occ) = []).
  { destruct Q5 as [_|v q Hv _]; [reflexivity|]. exfalso. apply (L1 "--require-matching-fields"%string); [cbn [In]; tauto|]. exact (SG _ _ Hv). }
  assert (Hm6 : ro_required (run_options_of a occ) = []).
  { destruct Q6 as [_|v q Hv _]; [reflexivity|]. exfalso. apply (L1 "--required-fields"%string); [cbn [In]; tauto|]. exact (SG _ _ Hv). }
  (* the configuration *)
  assert (Mp : mapping_of m occ f = Some [(u "article", article)]).
  { unfold mapping_of, value_or, config_file. rewrite not_given by (apply L1; cbn [In]; tauto). change (default_config_path "xml-mapping.conf") with (u "config/xml-mapping.conf").
    destruct C1 as (content & -> & ->). fold b. now rewrite (shipped_mapping _ _ (ul_space U) (ul_lower U)). }
  assert (Sg : exists sc, segmentation_of m c occ f = Some sc /\ forall n, In n (map fst (sc_mapping sc)) -> In n (map fst segment_options)).
  { assert (G : c = CSegmentation -> exists sc, config_file m f (value_or "--segmentation-config" (u "config/segmentation.conf") occ)
      (parse_segmentation_config (lb_sp b) (lb_lower b) (lb_int b) (comma_list (lb_sp b)) (rd_order (ml_readers m))) = Some sc /\ forall n, In n (map fst (sc_mapping sc)) -> In n (map fst segment_options)).
    { intros Ec. unfold value_or, config_file. rewrite not_given by (apply L1; cbn [In]; tauto). destruct (C2 Ec) as (content & -> & ->).
      rewrite (shipped_segments _ _ _ _ _ (ul_space U) (ul_lower U)). eexists. split; [reflexivity|]. exact (segment_names (fun s => rd_order (ml_readers m) (comma_list (lb_sp b) s)) _ _ eq_refl). }
    unfold segmentation_of. destruct c eqn:Ec; try (eexists; split; [reflexivity|intros ? []]). exact (G eq_refl). }
  destruct Sg as (sc & Sg & Sn).
  assert (R : ready argv f occ cl [(u "article", article)] sc).
  { constructor; try assumption; [now apply (mapping_spec argv occ R1)|now apply (segmentation_spec argv occ R1)]. }
  destruct l' as [|x0 r0].
  { exists 0. intros fuel f1 fails _ P. assert (St : start m c argv f = Nothing) by (apply C100_start; econstructor; eassumption).
    destruct P as [P|P|j k w P _ _]; try congruence. split; [reflexivity|]. split; [now left|intros ? []]. }
  remember (x0 :: r0) as l' eqn:El'. assert (Nl : l' <> []) by (subst; discriminate). clear x0 r0 El'.
  set (j := mkJob [(u "article", article)] (options_of a c occ) sc (threshold_of a occ) (run_options_of a occ) l' (worker_count (Z.to_nat (cl_workers cl)) l') (negb (has_flag "--multi-processing" occ)) (has_flag "--skip-errors" occ)).
  assert (A : asked occ cl [(u "article", article)] sc l' j).
  { constructor; try reflexivity; cbn [jb_shared jb_skip j]; [rewrite negb_true_iff, <- not_true_iff_false; apply not_iff_compat|]; apply flag_spec. }
  assert (St : starts argv f (Local j)) by (eapply starts_local; eassumption).
  pose proof (sources_names f occ l S Hfind) as Nd. pose proof (to_do_sub f occ l l' T) as Sub. pose proof (sub_list_NoDup basename l l' Sub Nd) as Nd'.
  assert (Src : forall src src', In src l' -> In src' l' -> src <> out_path (jb_run j) src' /\ ~ reject_path (jb_run j) src' src).
  { apply elsewhere_all. intros src Hs. apply Hels. eapply sub_list_In; eassumption. }
  assert (Check : forall g, ~ to_check c (jb_run j) g) by (intros g [_ H]; cbn [jb_run j] in H; rewrite Hm5, Hm6 in H; destruct H as [[]|[]]).
  assert (W : forall ch, ws4 ch = true -> lb_sp (job_libs m j) ch = true).
  { intros ch H. unfold ws4 in H. rewrite !orb_true_iff, !N.eqb_eq in H. change (lb_sp (job_libs m j)) with (lb_sp b). destruct H as [[[->| ->]| ->]| ->]; rewrite (ul_space U) by reflexivity; reflexivity. }
  destruct (C91_total (job_libs m j) (ml_readers m) (ml_formats m) c (ml_upper m) (ml_lower m) (ml_node_ok m) (jb_mapping j) (jb_options j) (job_inputs m j 0) (jb_run j) f W
     l' (jb_workers j) (jb_shared j) Hlsm Hwords Hunion (ul_write U)) as [n Hn].
  - exact (C87_searches _ _ _ _ Hlsm Hwords Hth).
  - exact (ul_words U).
  - exact (ul_nodes U).
  - split; [|split].
    + intros _. split; apply default_filter_total.
    + intros _ Hl. change (jb_options j) with (options_of a c occ) in *. apply O12 in Hl. destruct (L2 Hl) as [G1 G2]. split.
      * destruct O11 as [_|v q Hv _]; [reflexivity|]. exfalso. apply G1. exact (SG _ _ Hv).
      * destruct O9 as [_|v q Hv _]; [reflexivity|]. exfalso. apply G2. exact (SG _ _ Hv).
    + intros Ec _. exact (ul_regexes U Ec).
  - apply shipped_good_names; [exact Ho|exact Hof|exact Sn].
  - exact Nd'.
  - exact Src.
  - unfold isolated. cbn [jb_workers jb_shared j]. destruct (command_fix (ml_formats m) c) as [fx|] eqn:Ef; [|right; now left].
    assert (G : gives occ "--multi-processing" \/ cl_workers cl = 1%Z) by (apply Hiso; clear - Ef; destruct c; try discriminate Ef; tauto).
    destruct G as [G|G]; [left; apply flag_spec in G; now rewrite G|]. right. right. unfold worker_count. rewrite G. cbn [Z.to_nat]. lia.
  - intros src Hs. destruct (Hfine src Hs) as (content & final & path & tcontent & t & root & F1 & F2 & F3 & F4 & F5 & F6 & F7 & F8 & F9 & F10 & F11).
    destruct (shipped_readable (job_libs m j) (ml_readers m) c (options_of a c occ) t F8 F7 Ho) as (Hm & Hno).
    exists content, final, path, tcontent, t, root. repeat (split; [assumption|]). split; [exact (ul_readers U)|]. split; [exact Hm|]. split; [intros _ _ mm k; apply Hno|]. repeat (split; [assumption|]). intros l0 _. left. exact Check.
  - exists n. intros fuel f1 fails Hfuel P. pose proof (proj2 (C100_start argv f (Local j)) St) as St'.
    destruct P as [P|P|j' k w P Hk Hf]; try congruence. assert (j' = j) as -> by congruence.
    assert (D : forall i, i < length l' -> w_place w i = Done false) by (apply (Hn fuel k w Hfuel); [exact Hk|exact Hf]).
    assert (NF : run_fails (job_tasks j) (jb_skip j) w = false).
    { apply not_true_iff_false. intros X. unfold run_fails in X. apply andb_true_iff in X as [_ X]. apply existsb_exists in X as (i & Hi & X). apply in_seq in Hi.
      rewrite D in X; [discriminate|]. unfold job_tasks, tasks_of in Hi. rewrite map_length in Hi. cbn [jb_sources j] in Hi. lia. }
    assert (LS : forall src, In src l' -> left_saved fuel j f (w_files w) src).
    { intros src Hs. apply In_nth_error in Hs as [i Hi]. assert (Di : w_place w i = Done false) by (apply D, nth_error_Some; congruence).
      destruct (C91_run _ _ _ _ _ _ _ _ _ _ _ _ Hlsm Hwords Hunion _ _ _ Nd' Src k w i src Hk Hf Hi) as [(ts & root & d & s & H1 & H2 & H3 & H4 & H5 & H6)|[(ts & root & d & H1 & H2 & _)|(H4 & _)]].
      - exists ts, root, d, s. repeat (split; [assumption|]). exact H6.
      - exfalso. apply H2. split; [intros g _ Hg; cbn [jb_run j] in Hg; rewrite Hm6 in Hg; destruct Hg|]. intros g v Hg. now destruct (Check g Hg).
      - congruence. }
    split; [exact NF|]. split; [right; exists j; split; [exact St|split; [reflexivity|exact LS]]|].
    intros src Hs. destruct (LS src Hs) as (ts & root & d & s & _ & _ & _ & E & _). change (jb_run j) with (run_options_of a occ) in E. rewrite E. discriminate.
Qed.
End Main.

(* ---------------------------------------------------------------- *)
(** ** Example: figures with the shipped configuration; two workers, one of the three sources is done *)
Definition main_args : arg_libs :=
  mkArgLibs ascii_space ascii_digit PropArgs.ex_int (fun s => option_map inject_Z (PropArgs.ex_int s)) (fun l => l) ex_cloud
    (fun occ => Some (mkCloud (given (u "--cloud") occ) 2)).
Definition main_formats : formats :=
  mkFormats (fun s => if streq s (u "F") then Ok fig_source else Err ValueError)
    (fun s => if streq s (u "T") then Ok ship_target else Err ValueError) (fun r => Ok (show r)) (fun m r s => Ok (py_replace m r s))
    (@Ok str) (@Ok str) (fun _ => false) (fun _ => true) (fun _ => []) streq prefix_lsm PropWordMatch.first_word
    (fun l l' => l' ++ l).
Definition main_names : list str := [u "a.figure.tei.xml"; u "b.figure.tei.xml"; u "c.figure.tei.xml"].
Definition main_ex : main_libs :=
  mkMainLibs main_args real_libs ship_readers main_formats ascii_upper ascii_lower usual half (@Ok str)
    (fun pattern lim f => if streq pattern (u "in/*.figure.tei.xml*") then map (join_path (u "in")) main_names else []).
Definition main_files : files := fun p =>
  if mem p (map (join_path (u "in")) main_names) then Some (u "F") else if mem p [u "xml/a.xml"; u "xml/c.xml"] then Some (u "T")
  else if streq p (u "config/xml-mapping.conf") then Some xml_mapping_conf else if streq p (u "out/b.figure.tei.xml") then Some (u "done") else None.
Definition main_argv : list str :=
  [u "--source-base-path=in"; u "--output-path"; u "out"; u "--xml-path=xml"; u "--xml-filename-regex=/.figure.tei.xml/.xml/"; u "--multi-processing"; u "--resume"].
Definition main_occ : occurrences :=
  [(u "--source-base-path", Some (u "in")); (u "--output-path", Some (u "out")); (u "--xml-path", Some (u "xml")); (u "--xml-filename-regex", Some (u "/.figure.tei.xml/.xml/"));
   (u "--multi-processing", None); (u "--resume", None)].
Definition main_job : job :=
  mkJob [(u "article", article)] (options_of main_args CFigure main_occ) (mkSegConfig [] 0 0 false) (4 # 5) (run_options_of main_args main_occ)
    [u "in/a.figure.tei.xml"; u "in/c.figure.tei.xml"] 2 false false.
Lemma main_start : start main_ex CFigure main_argv main_files = Local main_job.
Proof. vm_compute. reflexivity. Qed.
Definition main_process := process_file (job_libs main_ex main_job) ship_readers main_formats CFigure ascii_upper ascii_lower usual (jb_mapping main_job) (jb_options main_job)
  (job_inputs main_ex main_job 20) (jb_run main_job) main_files.
Definition main_order : list nat := [0; 0] ++ concat (repeat [1; 2] 12) ++ repeat 1 200 ++ repeat 2 200 ++ [0].
Definition main_result : str := u "<tei><text><figure><head><label>Fig 1</label></head> <figDesc>stones</figDesc></figure> <note>page</note></text></tei>".
Example C100_ex : exists f1, program main_ex CFigure 20 main_argv main_files f1 false /\
  map f1 [u "out/a.figure.tei.xml"; u "out/b.figure.tei.xml"; u "out/c.figure.tei.xml"] = [Some main_result; Some (u "done"); Some main_result].
Proof.
  set (x := exec_all main_process (command_fix main_formats CFigure) (job_tasks main_job) 2 false (initial (job_tasks main_job) main_files) main_order).
  pose proof (exec_all_steps main_process (command_fix main_formats CFigure) (job_tasks main_job) 2 false (initial (job_tasks main_job) main_files) main_order) as X. fold x in X.
  assert (E : (map (w_place (fst x)) [0; 1], map (w_files (fst x)) [u "out/a.figure.tei.xml"; u "out/b.figure.tei.xml"; u "out/c.figure.tei.xml"]) =
    ([Done false; Done false], [Some main_result; Some (u "done"); Some main_result])) by (vm_compute; reflexivity).
  clearbody x. revert X E. generalize (length (snd x)), (fst x). clear x. intros k w X E. apply pair_equal_spec in E as [E F]. cbn [map] in E. injection E as E1 E2.
  exists (w_files w). split; [|exact F]. clear F. assert (R : run_fails (job_tasks main_job) (jb_skip main_job) w = false).
  { unfold run_fails. cbn [jb_skip main_job negb andb job_tasks tasks_of jb_sources map length seq existsb]. now rewrite E1, E2. }
  rewrite <- R. apply (program_local main_ex CFigure 20 main_argv main_files main_job k w main_start X).
  intros [|[|n]] Hn; cbn in Hn; try lia; eauto.
Qed.
(** What the theorems ask for. *)
Lemma main_fresh : cloud_fresh main_args.
Proof. exact ex_fresh. Qed.
Lemma main_line : reads (ag_dg main_args) (command_decls main_args CFigure) main_argv main_occ /\ complete (command_decls main_args CFigure) main_occ.
Proof. apply (line_spec main_ex CFigure main_fresh (conj eq_refl eq_refl)). vm_compute. reflexivity. Qed.
Lemma main_find f occ : sets occ "--source-base-path" (u "in") -> finds_names main_ex CFigure f occ.
Proof.
  intros S base lim H. exists main_names. apply last_value_sets in S, H. assert (base = u "in") as -> by congruence. split; [reflexivity|]. split; [apply distinct_NoDup; reflexivity|].
  repeat constructor; apply has_false; reflexivity.
Qed.
Lemma main_elsewhere l : sources main_ex CFigure main_files main_occ l -> elsewhere (run_options_of main_args main_occ) l.
Proof.
  intros S. apply (sources_spec main_ex CFigure main_fresh (conj eq_refl eq_refl) main_argv main_occ (proj1 main_line) (proj2 main_line)) in S; [|left; exists (u "in"); split; [apply last_value_sets; reflexivity|discriminate]]. subst l.
  intros src Hs. vm_compute in Hs. destruct Hs as [<-|[<-|[<-|[]]]]; (split; [vm_compute; discriminate|intros (dir & E & _); vm_compute in E; discriminate]).
Qed.
Lemma main_fine src : In src [u "in/a.figure.tei.xml"; u "in/c.figure.tei.xml"] -> fine_source main_ex CFigure (run_options_of main_args main_occ) main_files src.
Proof.
  assert (G : forall src path, main_files src = Some (u "F") -> target_file main_formats (run_options_of main_args main_occ) src path -> main_files path = Some (u "T") -> fine_source main_ex CFigure (run_options_of main_args main_occ) main_files src).
  { clear src. intros src path H1 H2 H3. exists (u "F"), (u "F"), path, (u "T"), ship_target, fig_source. split; [exact H1|]. split; [reflexivity|]. split; [reflexivity|]. split; [exact H2|]. split; [exact H3|].
    split; [reflexivity|]. split; [reflexivity|]. split; [exact (proj1 C99_ex_reads)|]. split; [reflexivity|]. split; [discriminate|].
    destruct C90_ex_saves as (_ & _ & _ & _ & _ & _ & _ & _ & _ & H & _). exact H. }
  intros [<-|[<-|[]]]; [apply (G _ (u "xml/a.xml"))|apply (G _ (u "xml/c.xml"))]; try reflexivity; eexists _, _; repeat split.
Qed.
Example C100_ex_shipped : exists n, forall fuel f1 fails, n <= fuel -> program main_ex CFigure fuel main_argv main_files f1 fails ->
  fails = false /\ f1 (u "out/a.figure.tei.xml") <> None /\ f1 (u "out/c.figure.tei.xml") <> None.
Proof.
  destruct (C100_shipped main_ex CFigure main_fresh (conj eq_refl eq_refl)) with (argv := main_argv) (f := main_files) (occ := main_occ) (cl := mkCloud false 2)
    (l := map (join_path (u "in")) main_names) (l' := [u "in/a.figure.tei.xml"; u "in/c.figure.tei.xml"]) as [n Hn].
  - intros d [<-|[<-|[]]]; reflexivity.
  - intros [|x r] H; [easy|discriminate].
  - exact prefix_lsm_ok.
  - exact C30_ex_ok.
  - intros l l' f. cbn [main_ex ml_formats main_formats fm_union]. rewrite in_app_iff. tauto.
  - constructor.
    + exact ex_sp.
    + intros l x. reflexivity.
    + intros x _. reflexivity.
    + intros x _. reflexivity.
    + exact (proj1 (proj2 C99_ex_reads)).
    + intros x _. reflexivity.
    + intros x y H. exact H.
    + discriminate.
    + intros r. eexists. reflexivity.
  - split; [exists xml_mapping_conf; split; reflexivity|discriminate].
  - apply main_line.
  - apply main_line.
  - split; [|split].
    + intros x H. repeat (destruct H as [<-|H]; [intros G; vm_compute in G; intuition discriminate|]). destruct H.
    + intros (p & o & q & E & _). assert (H : In (u "--use-line-number-annotator", o) main_occ) by (rewrite E; apply in_elt). vm_compute in H. intuition discriminate.
    + intros v q H. apply last_value_sets in H. discriminate.
  - left. exists (u "in"). split; [apply last_value_sets; reflexivity|discriminate].
  - reflexivity.
  - reflexivity.
  - cbn. lia.
  - intros _. left. vm_compute. tauto.
  - apply (sources_spec main_ex CFigure main_fresh (conj eq_refl eq_refl) main_argv main_occ (proj1 main_line) (proj2 main_line)); [left; exists (u "in"); split; [apply last_value_sets; reflexivity|discriminate]|reflexivity].
  - right. split; [vm_compute; tauto|]. exists (u "out"). split; [apply last_value_sets; reflexivity|reflexivity].
  - apply main_find, last_value_sets; reflexivity.
  - apply main_elsewhere.
    apply (sources_spec main_ex CFigure main_fresh (conj eq_refl eq_refl) main_argv main_occ (proj1 main_line) (proj2 main_line)); [left; exists (u "in"); split; [apply last_value_sets; reflexivity|discriminate]|reflexivity].
  - exact main_fine.
  - exists n. intros fuel f1 fails Hfuel P. destruct (Hn fuel f1 fails Hfuel P) as (H1 & _ & H3). split; [exact H1|]. split; [apply (H3 (u "in/a.figure.tei.xml")); now left|apply (H3 (u "in/c.figure.tei.xml")); right; now left].
Qed.
(** Other ways to start: without a source, with a missing file, with nothing to do, in the cloud *)
Example C100_ex_start :
  start main_ex CFigure (skipn 1 main_argv) main_files = Stops /\
  start main_ex CFigure (main_argv ++ [u "--xml-mapping-path=other.conf"]) main_files = Stops /\
  start main_ex CSegmentation main_argv main_files = Stops /\
  start main_ex CFigure (main_argv ++ [u "--source-path=in/b.figure.tei.xml"]) main_files = Nothing /\
  (exists j, start main_ex CFigure (main_argv ++ [u "--cloud"]) main_files = Beam j).
Proof. repeat split; try (vm_compute; reflexivity). exists main_job. vm_compute. reflexivity. Qed.
Example C100_ex_threshold : jb_threshold main_job = threshold_of main_args main_occ /\ threshold_of main_args main_occ = (4 # 5)%Q /\
  in_seq_filter (job_inputs main_ex main_job 20) ex_fm None false = Ok true.
Proof. vm_compute. auto. Qed.

(* ---------------------------------------------------------------- *)
(** ** Which files a command finds *)
(** names that a pattern of a file system describes: [*] is for characters of one name *)
Inductive globs : str -> str -> Prop :=
| gl_end : globs [] []
| gl_char ch p s : ch <> 42%N -> globs p s -> globs (ch :: p) (ch :: s)
| gl_star v p s : ~ In 47%N v -> globs p s -> globs (42%N :: p) (v ++ s).
(** what GROBID calls the training data of the models *)
Definition model_name (c : command) : string :=
  match c with
  | CHeader => "header" | CSegmentation => "segmentation" | CFulltext => "fulltext" | CFigure => "figure" | CTable => "table"
  | CReference => "references" | CReferenceSegmenter => "references.referenceSegmenter" | CAffiliation => "affiliation"
  end%string.
Fixpoint infixb (l s : str) : bool := starts_with l s || match s with [] => false | _ :: r => infixb l r end.
Lemma infixb_true l : forall pre post, infixb l (pre ++ l ++ post) = true.
Proof.
  induction pre as [|x pre IH]; intros post.
  - cbn [app]. assert (H : starts_with l (l ++ post) = true).
    { induction l as [|y l IHl]; [reflexivity|]. cbn. now rewrite N.eqb_refl. }
    destruct (l ++ post); cbn [infixb]; now rewrite H.
  - cbn [app infixb]. rewrite IH. apply orb_true_r.
Qed.
Lemma globs_literal : forall l p s, ~ In 42%N l -> globs (l ++ p) s -> exists s', s = l ++ s' /\ globs p s'.
Proof.
  induction l as [|x l IH]; intros p s N H; [now exists s|]. cbn [app] in H. inversion H as [|? ? t ? Hg|]; subst.
  - apply IH in Hg as (s' & -> & Hs); [|intros Q; apply N; now right]. now exists s'.
  - exfalso. apply N. now left.
Qed.
Lemma globs_between l s : ~ In 42%N l -> globs (42%N :: l ++ [42%N]) s -> exists pre post, s = pre ++ l ++ post.
Proof.
  intros N H. inversion H as [| |v p t Hv Hg]; subst; [congruence|]. apply globs_literal in Hg as (s' & -> & _); [|exact N]. now exists v, s'.
Qed.
Lemma after_name l : forall name pre post rest, ~ In 46%N name -> pre ++ (46%N :: l) ++ post = name ++ rest -> exists pre', pre' ++ (46%N :: l) ++ post = rest.
Proof.
  induction name as [|x name IH]; intros pre post rest N E; [now exists pre|]. destruct pre as [|y pre].
  - exfalso. apply N. left. cbn in E. now injection E.
  - injection E as _ E. eapply IH; [|exact E]. intros Q. apply N. now right.
Qed.
Lemma globs_chars : forall l p s, ~ In 42%N l -> globs p s -> globs (l ++ p) (l ++ s).
Proof. induction l as [|x l IH]; intros p s N H; [exact H|]. cbn. constructor; [intros ->; apply N; now left|]. apply IH; [|exact H]. intros Q. apply N. now right. Qed.
(** The files of a document in the source directory, as they are or compressed: each command finds those of its model only. *)
Theorem C100_patterns : forall c c' name, ~ In 46%N name -> ~ In 47%N name ->
  forall ending, In ending [u ""; u ".gz"] ->
  (globs (filename_pattern c) (name ++ u "." ++ u (model_name c') ++ u ".tei.xml" ++ ending) <-> c = c').
Proof.
  intros c c' name Nd Ns ending He. split.
  - intros H.
    assert (B : exists l, filename_pattern c = 42%N :: (46%N :: l) ++ [42%N] /\ ~ In 42%N (46%N :: l) /\
      (infixb (46%N :: l) (u "." ++ u (model_name c') ++ u ".tei.xml" ++ ending) = true -> c = c')).
    { exists (u (model_name c) ++ u ".tei.xml"). split; [destruct c; reflexivity|]. split; [destruct c; vm_compute; intuition discriminate|].
      destruct He as [<-|[<-|[]]]; destruct c, c'; vm_compute; intros Q; first [reflexivity|discriminate Q]. }
    destruct B as (l & E & Nl & B). rewrite E in H. apply globs_between in H as (pre & post & H); [|exact Nl].
    apply B. symmetry in H. apply after_name in H as [pre' <-]; [|exact Nd]. apply infixb_true.
  - intros <-. replace (filename_pattern c) with (42%N :: (u "." ++ u (model_name c) ++ u ".tei.xml") ++ [42%N]) by (destruct c; reflexivity).
    constructor; [exact Ns|].
    replace (u "." ++ u (model_name c) ++ u ".tei.xml" ++ ending) with ((u "." ++ u (model_name c) ++ u ".tei.xml") ++ ending ++ []) by (rewrite app_nil_r, <- !app_assoc; reflexivity).
    apply globs_chars; [destruct c; vm_compute; intuition discriminate|]. constructor; [|constructor].
    destruct He as [<-|[<-|[]]]; vm_compute; intuition discriminate.
Qed.
Example C100_ex_patterns : globs (filename_pattern CFigure) (u "paper1.figure.tei.xml.gz") /\ ~ globs (filename_pattern CReference) (u "paper1.references.referenceSegmenter.tei.xml").
Proof.
  split.
  - apply (C100_patterns CFigure CFigure (u "paper1")) with (ending := u ".gz"); [vm_compute; intuition discriminate..|right; left; reflexivity|reflexivity].
  - intros H. apply (C100_patterns CReference CReferenceSegmenter (u "paper1")) with (ending := []) in H; [discriminate|vm_compute; intuition discriminate..|left; reflexivity].
Qed.

Print Assumptions C100_start.
Print Assumptions C100_run.
Print Assumptions C100_ends.
Print Assumptions C100_same.
Print Assumptions C100_threshold.
Print Assumptions C100_shipped.
Print Assumptions C100_patterns.
