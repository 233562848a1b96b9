(** Model of the sequence of annotators (core/annotation/annotator.py L14-23) and of
    annotation/annotator.py L150-212 up to the checks.  The annotators themselves are
    modelled in ModelSimpleMatch, ModelMatch, ModelLineNumbers, ModelExpand,
    ModelSegmentation, ModelReference, ModelPostAnnot and ModelTeiDoc (removal). *)
From Verif Require Import Base ModelTags ModelTokenize ModelXml ModelTei ModelTeiDoc ModelJoined ModelTarget ModelFuzzyMatch
  ModelWordMatch ModelPostAnnot ModelLineNumbers ModelExpand ModelSegmentation ModelReference ModelSimpleMatch ModelMatch.
Open Scope nat_scope.

(** the libraries the annotators use *)
Record libs := mkLibs {
  lb_sp : N -> bool; lb_wd : N -> bool; lb_alpha : N -> bool; lb_dg : N -> bool;
  lb_lower : str -> str; lb_escape : str -> str; lb_int : str -> option Z;
  lb_re_search : str -> str -> option Z; (* simple matcher: prefix regular expressions *)
  lb_chunks : str -> str -> nat -> res (option (list irange));
  lb_all : str -> str -> list (res irange);
  lb_blocks : str -> str -> res (list block);
  lb_ref_search : str -> str -> option Z; (* references: prefix regular expressions *)
  lb_ref_regexes : list (str * str) }.

(** the annotators in use, with their configuration.  [fuel] bounds the loops (theorems
    C12_terminates, C54_total). *)
Inductive annotator :=
| ASimple (c : ModelSimpleMatch.config) (fuel : nat) (targets : list tann)
| ASubTagOnly (c : ModelSimpleMatch.config) (fuel : nat) (targets : list tann)
| AMatching (seq_filter choice_filter : fm_filter) (max_gap : Z) (begin_prefix : bool) (fuel : nat) (targets : list mann)
| ALineNumbers (c : ModelLineNumbers.config)
| AExpandPrevious (enabled : list str)
| AExpandFollowing (enabled : list str)
| ASegmentation (c : seg_config) (preserve : bool)
| AReferences (c : ref_config)
| AMergeGroup (group : str -> ostr) (lv : level)
| AReplaceTags (m : list (str * ostr))
| ARemoveUntagged.

Definition annotate_one (b : libs) (a : annotator) (d : doc) : res doc :=
  let sp := lb_sp b in
  match a with
  | ASimple c fuel ts =>
      simple_annotate sp (lb_wd b) (lb_lower b) (lb_escape b) (lb_re_search b) (lb_chunks b) (lb_all b) c false fuel ts d
  | ASubTagOnly c fuel ts =>
      sub_tag_annotate sp (lb_wd b) (lb_lower b) (lb_escape b) (lb_re_search b) (lb_chunks b) (lb_all b) c fuel ts d
  | AMatching sf cf gap prefix fuel ts =>
      matching_annotate sp (lb_alpha b) (lb_lower b) (lb_blocks b) sf cf gap prefix fuel ts d
  | ALineNumbers c => annotate_line_numbers sp (lb_int b) c d
  | AExpandPrevious enabled => Ok (annotate_previous sp enabled d)
  | AExpandFollowing enabled => Ok (annotate_following sp enabled d)
  | ASegmentation c preserve => Ok (segmentation sp (lb_dg b) (lb_int b) c preserve d)
  | AReferences c => annotate_references (lb_ref_search b) (lb_ref_regexes b) sp c d
  | AMergeGroup group lv => Ok (merge_group sp group lv d)
  | AReplaceTags m => Ok (replace_tags sp m d)
  | ARemoveUntagged => Ok (remove_all_untagged sp d)
  end.
(** core/annotation/annotator.py L20-23 *)
Definition annotate_all (b : libs) (l : list annotator) (d : doc) : res doc :=
  foldM (fun d a => annotate_one b a d) d l.

(** annotation/annotator.py L150-192: load, prepare, annotate; L206-211: save (to the
    tree that was loaded) *)
Record ann_options := mkAnnOptions {
  ao_always : list str; ao_preserve : bool; ao_fields : list str; ao_preserve_sub : bool; ao_no_sub : list str }.
Definition annotated_document (b : libs) (up lo : N -> bool) mapping keep (path : list str)
    (o : ann_options) (l : list annotator) (root : xml) : res doc :=
  do d <- load_document (lb_sp b) (lb_wd b) up lo mapping keep path root ;;
  annotate_all b l
    (prepare_document (lb_sp b) (ao_always o) (ao_preserve o) (ao_fields o) (ao_preserve_sub o) (ao_no_sub o) d).
Definition annotated_tree (b : libs) (up lo : N -> bool) node_ok mapping keep (path : list str)
    (o : ann_options) (l : list annotator) (root : xml) : res xml :=
  do d <- annotated_document b up lo mapping keep path o l root ;;
  updated_tei (lb_sp b) node_ok mapping path root d.
