(** Model of the annotation commands as programs: from the words of the command line and the files
    to the run: auto_annotate_header.py (H below) L52-108, auto_annotate_segmentation.py (S) L166-187, L237-256,
    auto_annotate_fulltext.py (F) L190-232, L257-276, auto_annotate_figure.py (G) L108-148, L169-188,
    auto_annotate_table.py (T) L87-122, L143-162, auto_annotate_reference.py (R) L171-209, L242-261,
    auto_annotate_reference_segmenter.py (Q) L50-77, L85-104, auto_annotate_affiliation_address.py (A)
    L127-164, L196-215 ([parse_args], [main], [run], the constructors), auto_annotate_utils.py (U) L112-113,
    L324-331, L405-427, L439-484, L559-602, L687-773.
    It puts together ModelArgs (command lines), ModelIni (configuration files), ModelPipeline (sources,
    workers) and ModelFiles (a command on files).
    Simplified: wherever the program ends with an exception or a message before the run there is only
    [Stops]; Apache Beam ([Beam]) is not modelled further; [--debug-match] and [--debug] have no effect. *)
From Coq Require Import QArith.
From Verif Require Import Base ModelTags ModelXml ModelTei ModelTeiDoc ModelMapping ModelTarget ModelTargets ModelTagConfigs ModelFuzzyMatch ModelWordMatch ModelFuzzySearch
  ModelSimpleMatch ModelMatch ModelSegmentation ModelAnnotators ModelCommands ModelRuns ModelChecks ModelSegChecks ModelFixXml ModelPipeline ModelSource ModelFiles ModelArgs ModelIni.
Open Scope list_scope.
Open Scope nat_scope.

(** library functions *)
Record main_libs := mkMainLibs {
  ml_args : arg_libs; ml_libs : libs; ml_readers : readers; ml_formats : formats;
  ml_upper : N -> bool; ml_lower : N -> bool; ml_node_ok : str -> list (str * str) -> bool;
  ml_below : Z -> Z -> bool;                        (* see [in_below] *)
  ml_text : str -> res str;                         (* [open(path, 'r')]: bytes to text *)
  ml_find : str -> option Z -> files -> list str }. (* [find_matching_filenames_with_limit] of sciencebeam_utils *)

(** H L56, S L170, F L194, G L112, T L91, R L175, Q L54, A L131 *)
Definition filename_pattern (c : command) : str :=
  match c with
  | CHeader => u "*.header.tei.xml*"
  | CSegmentation => u "*.segmentation.tei.xml*"
  | CFulltext => u "*.fulltext.tei.xml*"
  | CFigure => u "*.figure.tei.xml*"
  | CTable => u "*.table.tei.xml*"
  | CReference => u "*.references.tei.xml*"
  | CReferenceSegmenter => u "*.references.referenceSegmenter.tei.xml*"
  | CAffiliation => u "*.affiliation.tei.xml*"
  end.
(** U L112-113, L157, S L230 *)
Definition default_config_path (name : string) : str := join_path (u "config") (u name).

(** what is run on the local computer *)
Record job := mkJob {
  jb_mapping : mapping; jb_options : cmd_options; jb_segmentation : seg_config; jb_threshold : Q; jb_run : run_options;
  jb_sources : list str; jb_workers : nat; jb_shared : bool; jb_skip : bool }.
Inductive started := Stops | Nothing | Beam (j : job) | Local (j : job).

Section Main.
Variable m : main_libs.
Let a := ml_args m.
(** reading a configuration file *)
Definition config_file {A} (f : files) (path : str) (parse : str -> res A) : option A :=
  match f path with
  | None => None
  | Some content => match ml_text m content with
                    | Ok text => match parse text with Ok x => Some x | Err _ => None end
                    | Err _ => None
                    end
  end.
(** U L326-327 *)
Definition has_source (occ : occurrences) : bool :=
  truthy (last_value "--source-base-path" occ) || truthy (last_value "--source-path" occ).
(** U L405-427 *)
Definition mapping_of (occ : occurrences) (f : files) : option mapping :=
  config_file f (value_or "--xml-mapping-path" (default_config_path "xml-mapping.conf") occ)
    (parse_xml_mapping (lb_sp (ml_libs m)) (lb_lower (ml_libs m))).
(** S L182; the other commands have none *)
Definition segmentation_of (c : command) (occ : occurrences) (f : files) : option seg_config :=
  match c with
  | CSegmentation =>
      config_file f (value_or "--segmentation-config" (default_config_path "segmentation.conf") occ)
        (parse_segmentation_config (lb_sp (ml_libs m)) (lb_lower (ml_libs m)) (lb_int (ml_libs m)) (comma_list (lb_sp (ml_libs m))) (rd_order (ml_readers m)))
  | _ => Some (mkSegConfig [] 0 0 false)
  end.
(** U L687-699 *)
Definition limit_of (occ : occurrences) : option Z := match last_value "--limit" occ with Some v => ag_int a v | None => None end.
Definition sources_of (c : command) (occ : occurrences) (f : files) : list str :=
  source_list (last_value "--source-path" occ)
    (ml_find m (join_path (value_or "--source-base-path" [] occ) (filename_pattern c)) (limit_of occ) f).
(** H L89-108, U L324-331, L701-715, L740-773 *)
Definition start (c : command) (argv : list str) (f : files) : started :=
  match parse_argv (ag_dg a) (command_decls a c) argv with
  | None => Stops
  | Some occ =>
      if negb (has_source occ) then Stops
      else match ag_process_cloud a occ, mapping_of occ f, segmentation_of c occ f with
      | Some cl, Some xm, Some sc =>
          match remaining (has_flag "--resume" occ) (ro_output (run_options_of a occ)) f (sources_of c occ f) with
          | [] => Nothing
          | srcs =>
              let j := mkJob xm (options_of a c occ) sc (threshold_of a occ) (run_options_of a occ) srcs
                         (worker_count (Z.to_nat (cl_workers cl)) srcs) (negb (has_flag "--multi-processing" occ)) (has_flag "--skip-errors" occ) in
              if negb (cl_cloud cl) && (1 <=? cl_workers cl)%Z then Local j else Beam j
          end
      | _, _, _ => Stops
      end
  end.
(** U L465-484: the matchers with the threshold *)
Definition job_libs (j : job) : libs := with_searches (fm_lsm (ml_formats m)) (fm_words (ml_formats m)) (jb_threshold j) (ml_libs m).
Definition job_inputs (j : job) (fuel : nat) : inputs :=
  mkInputs [] [] [] (jb_segmentation j) (ml_below m) (simple_filter (jb_threshold j) 5 50) (simple_filter (jb_threshold j) 1 100) DEFAULT_MAX_MATCH_GAP fuel.
(** the steps of a run: U L740-760 *)
Definition job_tasks (j : job) : list task := tasks_of (jb_run j) (jb_sources j).
Definition job_steps (c : command) (j : job) (fuel : nat) (f : files) : nat -> world -> world -> Prop :=
  command_steps (job_libs j) (ml_readers m) (ml_formats m) c (ml_upper m) (ml_lower m) (ml_node_ok m) (jb_mapping j) (jb_options j) (job_inputs j fuel) (jb_run j)
    f (jb_sources j) (jb_workers j) (jb_shared j).
(** a program as a whole: the files afterwards, and whether it ends with an exception *)
Inductive program (c : command) (fuel : nat) (argv : list str) (f : files) : files -> bool -> Prop :=
| program_stops : start c argv f = Stops -> program c fuel argv f f true
| program_nothing : start c argv f = Nothing -> program c fuel argv f f false
| program_local j k w : start c argv f = Local j -> job_steps c j fuel f k (initial (job_tasks j) f) w -> finished (job_tasks j) w ->
    program c fuel argv f (w_files w) (run_fails (job_tasks j) (jb_skip j) w).
End Main.
