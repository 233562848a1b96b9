(** Model of a command from the target document to the saved source: what
    [get_default_annotators] (auto_annotate_utils.py L487-515, L460-470) and the same
    functions of the other commands (figure L63-89, table L58-84, fulltext L138-187,
    reference L134-170, affiliation L85-124) do before they make their annotators.
    Simplified: the target document is parsed; without a target XML there are no
    targets (not modelled here). *)
From Verif Require Import Base ModelTags ModelXml ModelTei ModelTeiDoc ModelMapping ModelTarget ModelTargets ModelTagConfigs ModelFuzzyMatch ModelSimpleMatch ModelMatch ModelSegmentation ModelAnnotators ModelCommands.
Open Scope list_scope.
Open Scope nat_scope.

(** further library functions (see ModelTargets, ModelTagConfigs) *)
Record readers := mkReaders {
  rd_lb : N -> bool; rd_compiles : str -> bool; rd_show_int : Z -> str;
  rd_json_concat : str -> res (list (list source)); rd_json_range : str -> res (list range_item);
  rd_group : str -> str -> option ostr; rd_spans : str -> str -> list (Z * Z);
  rd_order : list str -> list str }.
(** the parsed target document *)
Record target_doc := mkTargetDoc {
  td_tag : str; td_root : node;
  td_xpath : npath -> str -> res (list npath);
  td_excluding : list npath -> npath -> str }.

Section Runs.
Variable b : libs.
Variable rd : readers.
Definition targets_of (xm : mapping) (t : target_doc) : res (list tgt) :=
  xml_targets (lb_sp b) (lb_wd b) (lb_dg b) (lb_lower b) (rd_compiles rd) (lb_int b) (rd_show_int rd) (rd_json_concat rd) (rd_json_range rd)
    (rd_group rd) (rd_spans rd) (td_xpath t) (td_excluding t) (td_root t) xm (td_tag t).
(** the matcher that is used: the choice is only there for the default annotators *)
Definition simple_matcher (c : command) (o : cmd_options) : bool :=
  match c with CHeader | CSegmentation | CReferenceSegmenter => o_simple o | _ => true end.
Definition tags_of (c : command) (o : cmd_options) (xm : mapping) : res (list (str * tag_config)) :=
  if simple_matcher c o then tag_config_map (lb_sp b) (rd_lb rd) (lb_lower b) (rd_compiles rd) (lb_int b) (rd_order rd) xm else Ok [].
Definition run_inputs (c : command) (xm : mapping) (o : cmd_options) (i : inputs) (t : target_doc) : res inputs :=
  let xm' := fst (command_fields c xm o) in
  do ts <- targets_of xm' t ;;
  do tags <- tags_of c o xm' ;;
  Ok (mkInputs (map tann_of ts) (map mann_of ts) tags (in_segmentation i) (in_below i) (in_seq_filter i) (in_choice_filter i) (in_max_gap i) (in_fuel i)).
Definition run_document (c : command) (up lo : N -> bool) (xm : mapping) (o : cmd_options) (i : inputs) (t : target_doc) (root : xml) : res doc :=
  do i' <- run_inputs c xm o i t ;; command_document c b up lo xm o i' root.
Definition run_tree (c : command) (up lo : N -> bool) node_ok (xm : mapping) (o : cmd_options) (i : inputs) (t : target_doc) (root : xml) : res xml :=
  do i' <- run_inputs c xm o i t ;; command_tree c b up lo node_ok xm o i' root.
End Runs.
