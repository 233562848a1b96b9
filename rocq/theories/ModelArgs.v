(** Model of the command lines of the annotation commands: [argparse] (of Python 3.7, as far as it is
    used) with the options of auto_annotate_utils.py (U below) L114-321 and of the commands
    auto_annotate_header.py (H) L82-96, auto_annotate_segmentation.py (S) L210-243,
    auto_annotate_fulltext.py (F) L233-267, auto_annotate_figure.py (G) L150-174,
    auto_annotate_table.py (T) L124-148, auto_annotate_reference.py (R) L211-249,
    auto_annotate_reference_segmenter.py (Q) L79-92, auto_annotate_affiliation_address.py (A)
    L166-203, and what the pipeline factories make of them (U L543-602).
    Simplified: wherever the program ends with a message ([parser.error], [--help], exceptions of
    conversions) the result is [None]; the options for running in the cloud
    (sciencebeam_utils) are parameters; a score threshold is a rational number. *)
From Coq Require Import QArith.
From Verif Require Import Base ModelTarget ModelMapping ModelJoined ModelLineNumbers ModelPipeline ModelCommands ModelFiles.
Open Scope list_scope.
Open Scope nat_scope.

(* ------------------------------------------------------------------ *)
(** ** argparse *)
(** [-h], an option without a value, or one with a value ([accepts]: the conversion does not fail
    and the value is one of the choices) *)
Inductive kind := KHelp | KFlag | KValue (accepts : str -> bool).
Record decl := mkDecl { dc_name : str; dc_kind : kind; dc_required : bool }.
(** how a word of the command line is read ([_parse_optional]) *)
Inductive word := WValue (s : str) | WOption (d : decl) (explicit : ostr) | WWrong.
(** the options that were given, in order *)
Definition occurrences := list (str * ostr).

Section Argparse.
Variable dg : N -> bool. (* \d *)
Variable ds : list decl.
Definition HYPHEN : N := 45%N.
Definition BLANK : N := 32%N.
Definition hyphens : str := [HYPHEN; HYPHEN].
Definition find_decl (s : str) : option decl := find (fun d => streq (dc_name d) s) ds.
(** [^-\d+$|^-\d*\.\d+$] (["$"] also matches before a newline at the end) *)
Definition chomp (s : str) : str := match rev s with 10%N :: r => rev r | _ => s end.
Definition all_digits (s : str) : bool := match s with [] => false | _ => forallb dg s end.
Definition negative_number (s : str) : bool :=
  match s with
  | x :: r => N.eqb x HYPHEN &&
      (all_digits (chomp r) ||
       match cut ch_dot (chomp r) with Some (a, z) => forallb dg a && all_digits z | None => false end)
  | [] => false
  end.
(** [_get_option_tuples]: abbreviations *)
Definition option_tuples (s : str) : list (decl * ostr) :=
  if starts_with hyphens s then
    let pe := match cut ch_eq s with Some (a, e) => (a, Some e) | None => (s, None) end in
    map (fun d => (d, snd pe)) (filter (fun d => starts_with (fst pe) (dc_name d)) ds)
  else
    flat_map (fun d => if streq (dc_name d) (firstn 2 s) then [(d, Some (skipn 2 s))]
                       else if starts_with s (dc_name d) then [(d, None)] else []) ds.
(** [_parse_optional] *)
Definition classify (s : str) : word :=
  match s with
  | [] => WValue s
  | x :: r =>
      if negb (N.eqb x HYPHEN) then WValue s
      else match find_decl s with
      | Some d => WOption d None
      | None =>
          match r with
          | [] => WValue s
          | _ =>
              match match cut ch_eq s with Some (a, e) => option_map (fun d => (d, e)) (find_decl a) | None => None end with
              | Some (d, e) => WOption d (Some e)
              | None =>
                  match option_tuples s with
                  | [(d, e)] => WOption d e
                  | _ :: _ => WWrong (* ambiguous *)
                  | [] => if negative_number s then WValue s else if has BLANK s then WValue s else WWrong
                  end
              end
          end
      end
  end.
(** the value of an option; ["--"] is removed from the values, so that there is none *)
Definition takes (d : decl) (accepts : str -> bool) (v : str) : option (str * ostr) :=
  if streq v hyphens then None else if accepts v then Some (dc_name d, Some v) else None.
Definition add_occurrence (o : option (str * ostr)) (r : option occurrences) : option occurrences :=
  match o, r with Some x, Some l => Some (x :: l) | _, _ => None end.
(** [consume_optional]; words that are left over are errors, as there are no positional arguments *)
Fixpoint consume (ws : list word) : option occurrences :=
  match ws with
  | [] => Some []
  | WOption d e :: ws' =>
      match dc_kind d, e with
      | KHelp, _ => None
      | KFlag, None => add_occurrence (Some (dc_name d, None)) (consume ws')
      | KFlag, Some _ => None
      | KValue ok, Some v => add_occurrence (takes d ok v) (consume ws')
      | KValue ok, None =>
          match ws' with
          | WValue v :: ws'' => add_occurrence (takes d ok v) (consume ws'')
          | _ => None
          end
      end
  | _ :: _ => None
  end.
Definition given (n : str) (occ : occurrences) : bool := existsb (fun kv => streq (fst kv) n) occ.
(** [parse_args]; after ["--"] there are only positional arguments *)
Definition parse_argv (argv : list str) : option occurrences :=
  if mem hyphens argv then None
  else match consume (map classify argv) with
       | Some occ => if forallb (fun d => negb (dc_required d) || given (dc_name d) occ) ds then Some occ else None
       | None => None
       end.
End Argparse.

(* ------------------------------------------------------------------ *)
(** ** The options of the commands *)
Record cloud := mkCloud { cl_cloud : bool; cl_workers : Z }.
(** conversions of the standard library, and sciencebeam_utils.beam_utils.main *)
Record arg_libs := mkArgLibs {
  ag_sp : N -> bool; ag_dg : N -> bool;
  ag_int : str -> option Z; ag_float : str -> option Q;
  ag_order : list str -> list str;               (* [set(...)], in its order *)
  ag_cloud : list decl;                          (* [add_cloud_args] *)
  ag_process_cloud : occurrences -> option cloud (* [process_cloud_args] *) }.

Open Scope string_scope.
Open Scope list_scope.
Open Scope nat_scope.
Section Options.
Variable a : arg_libs.
Definition is_ok {A} (r : res A) : bool := match r with Ok _ => true | Err _ => false end.
Definition is_some {A} (r : option A) : bool := match r with Some _ => true | None => false end.
Definition help_decls : list decl := [mkDecl (u "-h") KHelp false; mkDecl (u "--help") KHelp false].
Definition flag (n : string) : decl := mkDecl (u n) KFlag false.
Definition value_of (n : string) (ok : str -> bool) : decl := mkDecl (u n) (KValue ok) false.
Definition required (n : string) : decl := mkDecl (u n) (KValue (fun _ => true)) true.
Definition text (n : string) : decl := value_of n (fun _ => true).
Definition number (n : string) : decl := value_of n (fun v => is_some (ag_int a v)).
Definition matcher_names : list str := [u "complex"; u "simple"].
(** U L114-257 *)
Definition pipeline_decls : list decl :=
  [text "--source-base-path"; text "--source-path"; required "--output-path"; text "--failed-output-path"; number "--limit";
   required "--xml-path"; required "--xml-filename-regex"; text "--xml-mapping-path"; flag "--no-preserve-tags";
   text "--always-preserve-fields"; flag "--resume";
   value_of "--matcher" (fun v => mem v matcher_names); value_of "--matcher-score-threshold" (fun v => is_some (ag_float a v));
   number "--matcher-lookahead-lines"; text "--debug-match"; flag "--multi-processing"; flag "--skip-errors";
   flag "--use-line-number-annotator"; flag "--no-line-number-annotator";
   number "--min-line-numbers-per-page"; number "--max-line-number-gap"; text "--min-line-number-ratio";
   value_of "--xml-mapping-overrides" (fun v => is_ok (parse_dict (ag_sp a) v))] ++ ag_cloud a.
(** U L260-276 *)
Definition checks_decls : list decl := [text "--require-matching-fields"; text "--required-fields"].
(** U L279-306 *)
Definition fields_decl (n : string) (defaults : list str) : decl :=
  value_of n (fun v => is_ok (plus_minus_list (ag_sp a) v defaults)).
(** U L309-321 *)
Definition sub_tags_decls : list decl := [flag "--preserve-sub-tags"; text "--no-preserve-sub-fields"].
Definition debug_decl : decl := flag "--debug". (* U L98-103 *)

(** S L63-86, F L100-113, G L60, T L55, R L75, Q L37, A L70; [None] for H *)
Definition default_fields (c : command) : list str :=
  match c with
  | CHeader => []
  | CSegmentation =>
      [u "title"; u "abstract"; u "keywords_title"; u "keywords"; u "manuscript_type"; u "author"; u "author_aff"; u "author_notes";
       u "body_section_title"; u "body_section_paragraph"; u "body_figure"; u "body_table";
       u "back_section_title"; u "back_section_paragraph"; u "back_figure"; u "back_table";
       u "acknowledgment_section_title"; u "acknowledgment_section_paragraph"; u "appendix_group_title"; u "appendix";
       u "reference_list_title"; u "reference"]
  | CFulltext =>
      [u "keywords"; u "section_title"; u "section_paragraph"; u "boxed_text_title"; u "boxed_text_paragraph"; u "list"; u "list_item";
       u "appendix_group_title"; u "appendix"; u "figure"; u "table"; u "reference_list_title"]
  | CFigure => [u "figure"]
  | CTable => [u "table"]
  | CReference | CReferenceSegmenter => [u "reference"]
  | CAffiliation => [u "author_aff"]
  end.
(** F L116, L237; the others have none *)
Definition default_sub_fields (c : command) : list str :=
  match c with CFulltext => map fst fulltext_mapping | _ => [] end.
(** the [add_main_args] of the commands *)
Definition segment_option (c : command) : option string :=
  match c with
  | CFigure => Some "--segment-figures" | CTable => Some "--segment-tables"
  | CReference => Some "--segment-references" | CAffiliation => Some "--segment-affiliation"
  | _ => None
  end.
Definition remove_option (c : command) : option string :=
  match c with CReference => Some "--remove-invalid-references" | CAffiliation => Some "--remove-invalid-affiliations" | _ => None end.
Definition main_decls (c : command) : list decl :=
  match c with
  | CHeader => checks_decls ++ [fields_decl "--fields" (default_fields c)]
  | CSegmentation =>
      checks_decls ++ [fields_decl "--fields" (default_fields c); text "--no-preserve-fields"; flag "--no-merge-references"; text "--segmentation-config"]
  | CFulltext =>
      checks_decls ++ [fields_decl "--fields" (default_fields c); fields_decl "--sub-fields" (default_sub_fields c);
        flag "--no-extend-to-line"; flag "--expand-to-previous-untagged-lines"; flag "--expand-to-following-untagged-lines"]
  | CFigure => [fields_decl "--fields" (default_fields c); fields_decl "--sub-fields" []] ++ sub_tags_decls ++ [flag "--segment-figures"]
  | CTable => [fields_decl "--fields" (default_fields c); fields_decl "--sub-fields" []] ++ sub_tags_decls ++ [flag "--segment-tables"]
  | CReference =>
      [fields_decl "--fields" (default_fields c); flag "--include-idno-prefix"; flag "--segment-references"; flag "--remove-invalid-references"]
  | CReferenceSegmenter => [fields_decl "--fields" (default_fields c)]
  | CAffiliation =>
      [fields_decl "--fields" (default_fields c); fields_decl "--sub-fields" []] ++ sub_tags_decls
      ++ [flag "--segment-affiliation"; flag "--remove-invalid-affiliations"]
  end.
Definition command_decls (c : command) : list decl := help_decls ++ pipeline_decls ++ main_decls c ++ [debug_decl].

(* ------------------------------------------------------------------ *)
(** ** Values *)
(** the last value given *)
Definition last_value (n : string) (occ : occurrences) : ostr :=
  fold_left (fun acc kv => if streq (fst kv) (u n) then snd kv else acc) occ None.
Definition has_flag (n : string) (occ : occurrences) : bool := given (u n) occ.
Definition has_option (n : option string) (occ : occurrences) : bool := match n with Some n => has_flag n occ | None => false end.
Definition value_or (n : string) (default : str) (occ : occurrences) : str :=
  match last_value n occ with Some v => v | None => default end.
(** the conversions do not fail for what has been accepted *)
Definition int_or (n : string) (default : Z) (occ : occurrences) : Z :=
  match last_value n occ with Some v => match ag_int a v with Some z => z | None => default end | None => default end.
Definition list_of (n : string) (occ : occurrences) : list str :=
  match last_value n occ with Some v => comma_list (ag_sp a) v | None => [] end.
Definition field_set (defaults : list str) (v : str) : list str :=
  match plus_minus_list (ag_sp a) v defaults with Ok l => ag_order a l | Err _ => [] end.
(** defaults that are texts are converted as well *)
Definition fields_of (n : string) (defaults : list str) (occ : occurrences) : list str :=
  match last_value n occ with
  | Some v => field_set defaults v
  | None => match defaults with [] => [] | _ => field_set defaults (join_str [ch_comma] defaults) end
  end.
Definition overrides_of (occ : occurrences) : options :=
  match last_value "--xml-mapping-overrides" occ with
  | Some v => match parse_dict (ag_sp a) v with Ok d => d | Err _ => [] end
  | None => []
  end.
Definition threshold_of (occ : occurrences) : Q :=
  match last_value "--matcher-score-threshold" occ with
  | Some v => match ag_float a v with Some q => q | None => 4 # 5 end
  | None => 4 # 5
  end.
(** both options have the same destination: the last one counts *)
Definition line_numbers_of (occ : occurrences) : bool :=
  fold_left (fun acc kv => if streq (fst kv) (u "--use-line-number-annotator") then true
                           else if streq (fst kv) (u "--no-line-number-annotator") then false else acc) occ false.
(** U L543-602 and the constructors of the commands; a negative number of lines to look ahead
    (an error when something is matched) is taken as 0 *)
Definition options_of (c : command) (occ : occurrences) : cmd_options :=
  mkOpts (fields_of "--fields" (default_fields c) occ) (fields_of "--sub-fields" (default_sub_fields c) occ) (overrides_of occ)
    (has_flag "--no-preserve-tags" occ) (list_of "--always-preserve-fields" occ) (list_of "--no-preserve-fields" occ)
    (has_flag "--preserve-sub-tags" occ) (list_of "--no-preserve-sub-fields" occ)
    (streq (value_or "--matcher" (u "simple") occ) (u "simple")) (Z.to_nat (int_or "--matcher-lookahead-lines" 500 occ))
    (line_numbers_of occ)
    (mkCli (int_or "--min-line-numbers-per-page" 10 occ) (int_or "--max-line-number-gap" 10 occ) (last_value "--min-line-number-ratio" occ))
    (has_option (segment_option c) occ) (has_option (remove_option c) occ)
    (has_flag "--no-extend-to-line" occ) (has_flag "--expand-to-previous-untagged-lines" occ) (has_flag "--expand-to-following-untagged-lines" occ)
    (has_flag "--include-idno-prefix" occ) (has_flag "--no-merge-references" occ).
Definition run_options_of (occ : occurrences) : run_options :=
  mkRunOptions (value_or "--output-path" [] occ) (last_value "--failed-output-path" occ) (value_or "--xml-path" [] occ)
    (value_or "--xml-filename-regex" [] occ) (list_of "--require-matching-fields" occ) (list_of "--required-fields" occ).
End Options.
