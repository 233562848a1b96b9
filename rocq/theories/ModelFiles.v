(** Model of a command on files: auto_annotate_utils.py (U below) L609-685
    ([AbstractAnnotatePipelineFactory] up to [_auto_annotate]), annotation/annotator.py (A)
    L152-202 ([annotate_structured_document]), annotation/checks.py L178-191, structured_document/
    grobid_training_tei.py (D) L725-745 (loading and saving), auto_annotate_segmentation.py
    (S) L197-208, auto_annotate_figure.py L92-108, L135-138, auto_annotate_fulltext.py L216-219
    with utils/xml.py L221-252, and [get_annotator] of the commands (e.g. auto_annotate_header.py
    L74-80).  It puts together ModelRuns (a command on trees), ModelChecks and ModelSegChecks,
    ModelSource (names and figure sources), ModelFixXml and ModelPipeline (workers, files).
    Simplified: an empty path of the target is a missing file; target files are read as they
    are at the start of the run; file contents are lists of bytes, parsers and serialiser
    arbitrary functions. *)
From Verif Require Import Base ModelTags ModelXml ModelTei ModelTeiDoc ModelMapping ModelTarget ModelTargets ModelTagConfigs ModelFuzzyMatch ModelWordMatch ModelFuzzySearch
  ModelSimpleMatch ModelMatch ModelSegmentation ModelAnnotators ModelCommands ModelRuns ModelChecks ModelSegChecks ModelFixXml ModelPipeline ModelSource.
Open Scope list_scope.
Open Scope nat_scope.

(** library functions on file contents *)
Record formats := mkFormats {
  fm_source : str -> res xml;             (* D L725-733: [etree.parse] with [recover=True] *)
  fm_target : str -> res target_doc;      (* utils/xml.py L80-119 *)
  fm_write : xml -> res str;              (* D L739: [etree.tostring] *)
  fm_sub : str -> str -> str -> res str;  (* [re.sub] *)
  fm_decode : str -> res str;             (* utils/xml.py L238: bytes to text *)
  fm_encode : str -> res str;
  fm_refused : str -> bool;               (* [etree.fromstring] raises another error than XMLSyntaxError *)
  fm_valid : str -> bool;
  fm_events : str -> list event;
  fm_similar : str -> str -> bool;        (* the ratio is not below the threshold *)
  fm_lsm : str -> str -> list block;
  fm_words : list str -> list str -> list block;
  fm_union : list str -> list str -> list str }. (* the union of two sets, in its order *)
(** the options with paths, and those of the checks *)
Record run_options := mkRunOptions {
  ro_output : str; ro_failed : ostr; ro_xml : str; ro_regex : str;
  ro_matching : list str; ro_required : list str }.

Section Files.
Variable b : libs.
Variable rd : readers.
Variable fm : formats.
Variable c : command.
Variable up lo : N -> bool.
Variable node_ok : str -> list (str * str) -> bool.
Variable xm : mapping.
Variable o : cmd_options.
Variable i : inputs.
Variable ro : run_options.

Definition of_opt {A} (e : err) (x : option A) : res A := match x with Some a => Ok a | None => Err e end.
Definition to_opt {A} (r : res A) : option A := match r with Ok a => Some a | Err _ => None end.

(** [get_final_source_url]: none, a figure source without a stray end tag, or repaired mark-up *)
Definition fixed_fulltext (content : str) : res str :=
  do s <- fm_decode fm content ;;
  if fm_refused fm s then Err ValueError
  else do s' <- get_fixed_xml (fm_valid fm) (fm_events fm) s ;; fm_encode fm s'.
Definition command_fix : option (str -> option str) :=
  match c with
  | CFigure => Some (fun content => Some (fix_source content))
  | CFulltext => Some (fun content => to_opt (fixed_fulltext content))
  | _ => None
  end.
(** U L633-643, S L197-208; only some commands have the options (H L59-60, S L173-174, F
    L197-198) *)
Definition checks_of : list str * list str :=
  match c with CHeader | CSegmentation | CFulltext => (ro_matching ro, ro_required ro) | _ => ([], []) end.
Definition command_checks (d : doc) (ts : list target) : res bool :=
  match c with
  | CSegmentation =>
      seg_passing (lb_sp b) (lb_alpha b) (fm_lsm fm) (fm_words fm) d (fm_union fm (fst checks_of) (snd checks_of)) (snd checks_of) ts
        (sc_mapping (in_segmentation i))
  | _ => passing (lb_sp b) (fm_similar fm) d (fst checks_of) (snd checks_of) ts
  end.
(** checks.py L178-191: the targets of the matcher *)
Definition checked_targets (i' : inputs) : list target := map (fun a => mkTarget (an_name a) (an_value a)) (in_targets i').
(** U L624-631 and the parsed target *)
Definition target_of (targets : files) (src : str) : res target_doc :=
  do path <- target_xml_path (fm_sub fm) (ro_xml ro) (ro_regex ro) src ;;
  do content <- of_opt RuntimeError (targets path) ;; fm_target fm content.
(** A L172-202, D L735-745 *)
Definition saved (root : xml) (d : doc) : res str :=
  do r <- updated_tei (lb_sp b) node_ok (command_mapping (lb_wd b) c (snd (command_fields c xm o))) (container c) root d ;; fm_write fm r.
Definition annotate_file (targets : files) (src content : str) : res outcome :=
  do t <- target_of targets src ;;
  do i' <- run_inputs b rd c xm o i t ;;
  do root <- fm_source fm content ;;
  do d <- command_document c b up lo xm o i' root ;;
  do ok <- command_checks d (checked_targets i') ;;
  if ok then do s <- saved root d ;; Ok (OSave s)
  else match failed_path (ro_failed ro) src with
       | None => Ok (OReject [])
       | Some _ => do s <- saved root d ;; Ok (OReject s)
       end.
(** U L652-685: any exception *)
Definition process_file (targets : files) (src content : str) : outcome :=
  match annotate_file targets src content with Ok x => x | Err _ => OFail end.
Definition tasks_of (srcs : list str) : list task := map (task_for (ro_output ro) (ro_failed ro)) srcs.
(** the run of a command on sources, with any workers (ModelPipeline) *)
Definition command_steps (targets : files) (srcs : list str) (workers : nat) (shared : bool) : nat -> world -> world -> Prop :=
  steps (process_file targets) command_fix (tasks_of srcs) workers shared.
End Files.
