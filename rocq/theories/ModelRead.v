(** Model of where XML files are read from: utils/io.py (I below) L15-39
    ([auto_download_input_file]), utils/xml.py (X) L53-70 ([auto_download_and_fix_input_file]) and
    L82-119 ([parse_xml]), fix_jats_xml.py (F) L830-836 (reading an article, which may be tried
    twice).  What is parsed, and the line of an error, is in ModelFixJats.
    Simplified: the local files are a function from paths to contents; a remote file is its whole
    content (after decompression) or an error; all errors of the operating system are [ROs]; a
    [Path] is its text. *)
From Verif Require Import Base ModelPipeline ModelJats ModelFixJats.
Open Scope list_scope.
Open Scope nat_scope.

(** what is given: a name, or a function that opens a file, here what reading it gives *)
Inductive source := Named (url : str) | Opened (content : res str).
Inductive read_error := RXml (e : xml_error) | RErr (e : err) | ROs.

(** ['://' in s] *)
Fixpoint has_scheme (s : str) : bool :=
  starts_with (u "://") s || match s with [] => false | _ :: s' => has_scheme s' end.
(** the names of directories that a new file cannot have *)
Definition is_file_name (n : str) : bool := negb (streq n [] || streq n (u ".") || streq n (u "..")).
(** the files below a directory *)
Definition below (d p : str) : bool := starts_with (d ++ [SLASH]) p.
(** leaving [TemporaryDirectory]: all files in it are deleted *)
Definition remove_dir (d : str) (f : files) : files := fun p => if below d p then None else f p.

Section Read.
(** [FileSystems.open] *)
Variable remote : str -> res str.
(** [TemporaryDirectory]: the name of a new directory, by suffix *)
Variable temp : str -> files -> str.
Variable parse : str -> parsed.

Section With.
Context {A : Type}.
(** the code inside of a [with]: gets a path; gives a result or an exception, and the files *)
Definition body := str -> files -> (A + read_error) * files.

(** [with TemporaryDirectory(suffix)] around writing a file and the rest *)
Definition in_temp (suffix name : str) (content : res str) (b : body) (f : files) : (A + read_error) * files :=
  let d := temp suffix f in
  match content with
  | Err e => (inr (RErr e), remove_dir d f)
  | Ok c =>
      if is_file_name name then
        let p := join_path d name in
        let '(r, f') := b p (upd f p (Some c)) in (r, remove_dir d f')
      else (inr ROs, remove_dir d f)
  end.

(** I L15-39 *)
Definition with_download (s : source) (b : body) (f : files) : (A + read_error) * files :=
  match s with
  | Named ((_ :: _) as url) =>
      if negb (has_scheme url) then b url f                                    (* L27-29 *)
      else in_temp (u "-input") (basename url) (remote url) b f                (* L31-33 *)
  | Named [] => in_temp (u "-input") (u "temp.file") (Err AssertionError) b f  (* L36 *)
  | Opened c => in_temp (u "-input") (u "temp.file") c b f                     (* L35 *)
  end.

(** X L53-70 *)
Definition with_fixed (fix_xml : bool) (s : source) (b : body) : files -> (A + read_error) * files :=
  with_download s (fun p f =>
    if fix_xml then
      match f p with
      | None => (inr ROs, f)
      | Some data => in_temp (u "-input-fixed") (basename p) (Ok (fix_data data)) b f
      end
    else b p f).
End With.

(** X L87-112 for a file *)
Definition parse_path (p : str) (f : files) : ((ostr * node) + read_error) * files :=
  (match f p with
   | None => inr ROs
   | Some data => match parse_data parse data with inl d => inl d | inr e => inr (RXml e) end
   end, f).
(** X L82-119 *)
Definition parse_source (fix_xml : bool) (s : source) : files -> ((ostr * node) + read_error) * files :=
  with_fixed fix_xml s parse_path.

(** F L831-836: the second try is inside the same [with] *)
Definition is_caught (e : read_error) : bool := match e with RXml e' => is_value_error e' | RErr ValueError => true | _ => false end.
Definition read_source (s : source) : files -> ((ostr * node * bool) + read_error) * files :=
  with_download s (fun p f =>
    match parse_source false (Named p) f with
    | (inl d, f') => (inl (d, false), f')
    | (inr e, f') =>
        if is_caught e then
          match parse_source true (Named p) f' with
          | (inl d, f'') => (inl (d, true), f'')
          | (inr e', f'') => (inr e', f'')
          end
        else (inr e, f')
    end).
End Read.
