(** Model of fix_jats_xml.py (F below) on files: L825-920 ([fix_jats_xml_file],
    [FixJatsProcessor]), with utils/xml.py (X) L41-119 (reading XML files, skipping blanks,
    repairing, the line of an error).  It puts together ModelJats (the references and the meta
    data, F L129-822) and ModelPipeline (workers, files).
    Simplified: file contents are lists of bytes; the parser, the serialiser, the current time
    and [relative_path] and [load_file_list] of sciencebeam_utils are arbitrary functions; the time
    is a function of the source, each source being processed once; remote files, log messages and
    the wrapping of exceptions (F L873-886) are left out; errors while writing too. *)
From Verif Require Import Base ModelDownload ModelTarget ModelJatsText ModelJats ModelPipeline.
Open Scope list_scope.
Open Scope nat_scope.

(* ---------------------------------------------------------------- *)
(** ** Reading XML files *)
(** [etree.parse]: the encoding and the root; or XMLSyntaxError with the number of a line (0:
    none); or another exception *)
Inductive parsed := PDoc (encoding : ostr) (root : ModelJats.node) | PSyntax (line : nat) | POther (e : err).
(** exceptions of [parse_xml]: XMLSyntaxErrorWithErrorLine (X L41-44), which is a ValueError,
    with the line; XMLSyntaxError, which is none; others *)
Inductive xml_error := XLine (line : str) | XSyntax | XOther (e : err).
Definition BLANK : N := 32%N.
Definition LF : N := 10%N.
(** X L73-79 *)
Fixpoint skip_spaces (s : str) : str := match s with x :: s' => if N.eqb x BLANK then skip_spaces s' else s | [] => [] end.
(** [bytes.lstrip]: tab, line feed, vertical tab, form feed, carriage return, blank *)
Definition byte_space (x : N) : bool := ((9 <=? x) && (x <=? 13) || (x =? 32))%N.
(** X L66-69: the contents of the repaired file *)
Definition fix_data (data : str) : str := py_replace (u "&dagger;") (u "&#x2020;") (lstrip byte_space data).
(** the lines of a binary file, each with its line feed; [cur]: read so far *)
Fixpoint file_lines (cur s : str) : list str :=
  match s with
  | [] => match cur with [] => [] | _ => [cur] end
  | x :: s' => if N.eqb x LF then (cur ++ [x]) :: file_lines [] s' else file_lines (cur ++ [x]) s'
  end.
(** X L102-111: the line that is reported, if there is one: [enumerate(temp_fp, 1)] *)
Fixpoint find_line (n at_ : nat) (lines : list str) : option str :=
  match lines with [] => None | l :: ls => if Nat.eqb at_ n then Some l else find_line n (S at_) ls end.

Section Parse.
Variable parse : str -> parsed.
(** X L82-112 *)
Definition parse_data (data : str) : (ostr * ModelJats.node) + xml_error :=
  match parse (skip_spaces data) with
  | PDoc enc root => inl (enc, root)
  | PSyntax n => match find_line n 1 (file_lines [] data) with Some l => inr (XLine l) | None => inr XSyntax end
  | POther e => inr (XOther e)
  end.
Definition parse_xml (fix_xml : bool) (content : str) : (ostr * ModelJats.node) + xml_error :=
  parse_data (if fix_xml then fix_data content else content).
Definition is_value_error (e : xml_error) : bool := match e with XLine _ | XOther ValueError => true | _ => false end.
(** F L830-836: the document, and whether it has been repaired *)
Definition read_jats (content : str) : (ostr * ModelJats.node * bool) + xml_error :=
  match parse_xml false content with
  | inl d => inl (d, false)
  | inr e => if is_value_error e then match parse_xml true content with inl d => inl (d, true) | inr e' => inr e' end else inr e
  end.
End Parse.

(* ---------------------------------------------------------------- *)
(** ** One file *)
(** library functions *)
Record jats_libs := mkJats {
  jl_sp : N -> bool; jl_wd : N -> bool; jl_dg : N -> bool;
  jl_token : str -> bool; jl_nopunct : str -> str; jl_nopunct_space : str -> str;
  jl_pii_valid : str -> option (nat * nat); jl_pii_other : str -> option (nat * nat);
  jl_pmid : str -> option (nat * nat); jl_pmid_fix : str -> option (nat * nat);
  jl_pmcid : str -> option (nat * nat); jl_wos : str -> option (nat * nat);
  jl_doi_prefix : str -> option (nat * nat); jl_repeated : str -> option nat; jl_lower : str -> str;
  jl_tostring : ModelJats.node -> str;              (* [etree.tostring] of a reference *)
  jl_decimal : nat -> str;                          (* [str] of a number *)
  jl_parse : str -> parsed;
  jl_write : ostr -> ModelJats.node -> res str;     (* [etree.tostring] of the tree, with its encoding *)
  jl_relative : str -> str -> str;                  (* [relative_path] *)
  jl_now : str -> str }.                            (* the time, by source *)

Section File.
Variable j : jats_libs.
Definition fix_ref : ModelJats.node -> res ModelJats.node :=
  fix_reference (jl_sp j) (jl_wd j) (jl_dg j) (jl_token j) (jl_nopunct j) (jl_nopunct_space j) (jl_pii_valid j) (jl_pii_other j)
    (jl_pmid j) (jl_pmid_fix j) (jl_pmcid j) (jl_wos j) (jl_doi_prefix j) (jl_repeated j) (jl_lower j).
Definition fix_root : ModelJats.node -> res ModelJats.node :=
  fix_jats_xml_node (jl_sp j) (jl_wd j) (jl_dg j) (jl_token j) (jl_nopunct j) (jl_nopunct_space j) (jl_pii_valid j) (jl_pii_other j)
    (jl_pmid j) (jl_pmid_fix j) (jl_pmcid j) (jl_wos j) (jl_doi_prefix j) (jl_repeated j) (jl_lower j).
(** F L802, L807-808 *)
Definition NOTE : str := u "This XML file had been modified to fix some of the potential errors.".
Definition flag (b : bool) : str := if b then u "true" else u "false".
(** F L837-845; the root of a document is an element *)
Definition fix_document (now : str) (malformed : bool) (root : ModelJats.node) : res ModelJats.node :=
  match root with
  | Mi _ => Err AttributeError
  | El _ _ _ _ _ _ =>
      do root' <- fix_root root ;;
      do data <- meta_data (jl_tostring j) (jl_decimal j) NOTE now (flag malformed) root' root ;;
      Ok (add_meta data root')
  end.
Definition error_of (e : xml_error) : err := match e with XLine _ => ValueError | XSyntax => RuntimeError | XOther e => e end.
(** F L825-846: what is saved *)
Definition fix_file (now content : str) : res str :=
  match read_jats (jl_parse j) content with
  | inl (enc, root, malformed) => do root' <- fix_document now malformed root ;; jl_write j enc root'
  | inr e => Err (error_of e)
  end.

(* ---------------------------------------------------------------- *)
(** ** The command *)
(** F L855-859: [opt.source_base_path or (list and dirname(list)) or dirname(source_path)] *)
Definition source_base (base list_path source_path : ostr) : res str :=
  if truthy base then Ok (otext base)
  else
    let from_list := match list_path with Some ((_ :: _) as l) => dirname l | _ => [] end in
    match from_list with
    | [] => match source_path with None => Err TypeError | Some p => Ok (dirname p) end
    | d => Ok d
    end.
(** F L907-920; [listed]: the files of the list; [found]: those that match the pattern *)
Definition source_files (list_path source_path : ostr) (listed found : list str) : list str :=
  if truthy list_path then listed else if truthy source_path then [otext source_path] else found.
(** F L866-870 *)
Definition output_for (output base src : str) : str := join_path output (jl_relative j base src).
Definition fix_task (output base src : str) : task := mkTask src (output_for output base src) None.
(** F L873-879 *)
Definition process_source (output base src content : str) : outcome :=
  if streq (output_for output base src) src then OFail
  else match fix_file (jl_now j src) content with Ok s => OSave s | Err _ => OFail end.
(** F L888-905, L922-927 *)
Definition fix_steps (output base : str) (srcs : list str) (workers : nat) (multi_processing : bool) : nat -> world -> world -> Prop :=
  ModelPipeline.steps (process_source output base) None (map (fix_task output base) srcs) workers (negb multi_processing).
Definition fix_run_fails (output base : str) (srcs : list str) (w : world) : bool :=
  run_fails (map (fix_task output base) srcs) false w.
End File.
