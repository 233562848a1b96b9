(** Model of download_source_files.py L108-346: pairs of documents and targets are copied.
    Simplified: the rows of the file lists (after [limit], by [load_file_list] of
    sciencebeam_utils) are given; [to_relative_file_list] and [to_absolute_file_list] of
    sciencebeam_utils are functions of the base path and the file; files are a function
    from paths to contents (after decompression: Apache Beam's [FileSystems] does that by
    the extension); directories are not modelled ([mkdirs_if_not_exists], L238-242).
    The format string language is [{field}], [{{] and [}}]; a field that is none of the
    names below (with conversion, format, or unknown) is evaluated by [special]; fields
    within a format are not modelled. *)
From Verif Require Import Base ModelPipeline.
From Coq Require DecimalString.
Open Scope nat_scope.

Definition DOT : N := 46%N.
Definition OPEN : N := 123%N.
Definition CLOSE : N := 125%N.

(* ------------------------------------------------------------------ *)
(** ** Paths (os.path, posix) *)
(** before the last [c], and from it on *)
Fixpoint split_last (c : N) (p : str) : option (str * str) :=
  match p with
  | [] => None
  | x :: p' =>
      match split_last c p' with
      | Some (a, b) => Some (x :: a, b)
      | None => if N.eqb x c then Some ([], x :: p') else None
      end
  end.
Definition is_slash (x : N) : bool := N.eqb x SLASH.
Fixpoint drop_while (f : N -> bool) (p : str) : str :=
  match p with [] => [] | x :: p' => if f x then drop_while f p' else p end.
Definition rstrip_slash (p : str) : str := rev (drop_while is_slash (rev p)).
(** [os.path.dirname] *)
Definition dirname (p : str) : str :=
  match split_last SLASH p with
  | None => []
  | Some (a, _) => let head := a ++ [SLASH] in if forallb is_slash head then head else rstrip_slash head
  end.
(** [os.path.splitext] of a file name without slash *)
Definition splitext (p : str) : str * str :=
  match split_last DOT p with
  | Some (a, b) => if forallb (N.eqb DOT) a then (p, []) else (a, b)
  | None => (p, [])
  end.

(* ------------------------------------------------------------------ *)
(** ** Output names *)
(** L164-175 *)
Record props := mkProps { p_dir : str; p_filename : str; p_name : str; p_ext : str }.
(** [ext.lower() == '.gz'] *)
Definition is_gz (ext : str) : bool :=
  match ext with
  | [d; g; z] => N.eqb d DOT && (N.eqb g 103 || N.eqb g 71) && (N.eqb z 122 || N.eqb z 90)
  | _ => false
  end.
Definition filename_props (p : str) : props :=
  let filename := basename p in
  let (name, ext) := splitext filename in
  let (name, ext) := if is_gz ext then splitext name else (name, ext) in
  mkProps (match dirname p with [] => [] | d => d ++ [SLASH] end) filename name ext.

(** the parts of a format string *)
Inductive part := Lit (x : N) | Field (name : str).
(** [cur]: the characters of the field so far *)
Fixpoint parse_format (cur : option str) (p : str) : res (list part) :=
  match cur with
  | Some f =>
      match p with
      | [] => Err ValueError
      | x :: p' => if N.eqb x CLOSE then do r <- parse_format None p' ;; Ok (Field f :: r) else parse_format (Some (f ++ [x])) p'
      end
  | None =>
      match p with
      | [] => Ok []
      | x :: p' =>
          if N.eqb x OPEN then
            match p' with
            | y :: p'' => if N.eqb y OPEN then do r <- parse_format None p'' ;; Ok (Lit OPEN :: r) else parse_format (Some []) p'
            | [] => Err ValueError
            end
          else if N.eqb x CLOSE then
            match p' with
            | y :: p'' => if N.eqb y CLOSE then do r <- parse_format None p'' ;; Ok (Lit CLOSE :: r) else Err ValueError
            | [] => Err ValueError
            end
          else do r <- parse_format None p' ;; Ok (Lit x :: r)
      end
  end.

Definition digits (n : nat) : str := u (DecimalString.NilZero.string_of_uint (Nat.to_uint n)).
Record context := mkContext { c_index : nat; c_own : props; c_document : props; c_target : props }.
Definition prop_of (p : props) (name : str) : option str :=
  if streq name (u "dir") then Some (p_dir p)
  else if streq name (u "filename") then Some (p_filename p)
  else if streq name (u "name") then Some (p_name p)
  else if streq name (u "ext") then Some (p_ext p)
  else None.

Section Download.
Variable special : str -> context -> res str.
Variables to_relative to_absolute : str -> str -> str.

Definition strip_prefix (p s : str) : option str := if starts_with p s then Some (skipn (length p) s) else None.
Definition eval_field (c : context) (name : str) : res str :=
  if streq name (u "index") then Ok (digits (c_index c))
  else match prop_of (c_own c) name with
       | Some v => Ok v
       | None =>
           let sub := match strip_prefix (u "document.") name with
                      | Some a => prop_of (c_document c) a
                      | None => match strip_prefix (u "target.") name with Some a => prop_of (c_target c) a | None => None end
                      end in
           match sub with Some v => Ok v | None => special name c end
       end.
Fixpoint eval_parts (c : context) (l : list part) : res str :=
  match l with
  | [] => Ok []
  | Lit x :: l' => do r <- eval_parts c l' ;; Ok (x :: r)
  | Field f :: l' => do v <- eval_field c f ;; do r <- eval_parts c l' ;; Ok (v ++ r)
  end.
(** L178-188: [documents], [targets]: the lists of [file_lists] *)
Definition output_filename (documents targets : list str) (pattern : str) (index : nat) (file : str) : res str :=
  match nth_error documents index, nth_error targets index with
  | Some d, Some t =>
      do parts <- parse_format None pattern ;;
      eval_parts (mkContext index (filename_props file) (filename_props d) (filename_props t)) parts
  | _, _ => Err IndexError
  end.
(** L191-203 *)
Fixpoint output_filenames (documents targets : list str) (pattern : str) (index : nat) (files : list str) : res (list str) :=
  match files with
  | [] => Ok []
  | f :: files' =>
      do o <- output_filename documents targets pattern index f ;;
      do os <- output_filenames documents targets pattern (S index) files' ;;
      Ok (o :: os)
  end.

(* ------------------------------------------------------------------ *)
(** ** File lists *)
(** L108-129 *)
Record file_list := mkFL { fl_base : ostr; fl_rel : list str; fl_abs : list str }.
Definition make_list (base : ostr) (files : list str) : file_list :=
  match base with
  | Some ((_ :: _) as b) => mkFL base (map (to_relative b) files) (map (to_absolute b) files)
  | _ => mkFL base files files
  end.
Definition select (sel : list bool) (l : file_list) : res file_list :=
  if Nat.eqb (length sel) (length (fl_abs l))
  then Ok (make_list (fl_base l) (map fst (filter snd (combine (fl_abs l) sel))))
  else Err AssertionError.
(** L206-221 *)
Definition output_list (source : file_list) (documents targets : list str) (output_path pattern : str) : res file_list :=
  do names <- output_filenames documents targets pattern 0 (fl_rel source) ;;
  Ok (make_list (Some output_path) (map (join_path output_path) names)).
(** L271-289; existence by [map_file_list_to_file_exists] *)
Definition pair_exists (f : files) (l1 l2 : file_list) : list bool :=
  map (fun x => fst x && snd x) (combine (map (exists_file f) (fl_abs l1)) (map (exists_file f) (fl_abs l2))).
(** L245-254: what is to be copied (one task for each file) *)
Definition copy_tasks (sources outputs : list str) : res (list task) :=
  if Nat.eqb (length sources) (length outputs)
  then Ok (map (fun x => mkTask (fst x) (snd x) None) (combine sources outputs))
  else Err AssertionError.

Record config := mkConfig { cf_base : ostr; cf_output : str; cf_pattern : str }.
(** L287-348: [run]: the files to be copied: the documents, then the targets *)
Definition plan_copies (f : files) (doc_config target_config : config) (doc_rows target_rows : list str) : res (list task * list task) :=
  let all_documents := make_list (cf_base doc_config) doc_rows in
  let all_targets := make_list (cf_base target_config) target_rows in
  let sel := pair_exists f all_documents all_targets in
  do documents <- select sel all_documents ;;
  do targets <- select sel all_targets ;;
  if Nat.eqb (length (fl_abs documents)) 0 then Err ValueError else
  do doc_out <- output_list documents (fl_rel documents) (fl_rel targets) (cf_output doc_config) (cf_pattern doc_config) ;;
  do target_out <- output_list targets (fl_rel documents) (fl_rel targets) (cf_output target_config) (cf_pattern target_config) ;;
  do docs <- copy_tasks (fl_abs documents) (fl_abs doc_out) ;;
  do tgts <- copy_tasks (fl_abs targets) (fl_abs target_out) ;;
  Ok (docs, tgts).
End Download.

(** L256-266: [copy_files] with a thread pool: each file is read, its output is created and
    written, in any interleaving; the steps are those of ModelPipeline.  The source is read
    before the output is created. *)
Definition copy (src c : str) : outcome := OSave c.
Definition copy_steps (tasks : list task) (threads k : nat) (f : files) (w : world) : Prop :=
  steps copy None tasks threads true k (initial tasks f) w.
