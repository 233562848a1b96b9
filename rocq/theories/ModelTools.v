(** Model of the two other tools as programs, from the words of the command line and the files to
    the run: download_source_files.py (D below) L22-105, L151-160, L292-356 and fix_jats_xml.py (F) L849-864,
    L888-1010.  It puts together ModelArgs (command lines), ModelDownload (what is copied) and
    ModelFixJats (what is fixed).
    Simplified: wherever a program ends with an exception or a message before the run it only
    stops; [load_file_list] and [find_matching_filenames_with_limit] of sciencebeam_utils are arbitrary
    functions of their arguments and the files; a thread pool of D goes on with the other files after
    one that fails (Python ends the part of the list that the file is in); [--debug] and [--no-log-file] have no effect. *)
From Verif Require Import Base ModelPipeline ModelDownload ModelTarget ModelJats ModelFixJats ModelArgs.
Open Scope string_scope.
Open Scope list_scope.
Open Scope nat_scope.

Record tool_libs := mkToolLibs {
  tl_args : arg_libs;
  tl_list : str -> str -> option Z -> files -> option (list str); (* [load_file_list(path, column, limit)]; [None]: an exception *)
  tl_find : str -> option Z -> files -> list str;                 (* [find_matching_filenames_with_limit(pattern, limit)] *)
  tl_jats : jats_libs;
  tl_special : str -> context -> res str;                         (* see ModelDownload *)
  tl_relative : str -> str -> str; tl_absolute : str -> str -> str }.

Section Tools.
Variable t : tool_libs.
Let a := tl_args t.
(** [type=int], without a default *)
Definition opt_int (n : string) (occ : occurrences) : option Z := match last_value n occ with Some v => ag_int a v | None => None end.

(* ---------------------------------------------------------------- *)
(** ** fix_jats_xml *)
(** F L932-976, L979-982 *)
Definition fix_own_decls : list decl :=
  [text "--source-base-path"; text "--source-path"; text "--source-filename-pattern"; text "--source-file-list"; text "--source-file-list-column";
   required "--output-path"; number a "--limit"; ModelArgs.flag "--multi-processing"; ModelArgs.flag "--no-log-file"].
Definition fix_decls : list decl := help_decls ++ fix_own_decls ++ ag_cloud a ++ [debug_decl].
Inductive fix_started := FixStops | FixNothing | FixRuns (output base : str) (srcs : list str) (workers : nat) (multi_processing : bool).
(** F L907-920 *)
Definition fix_sources_of (occ : occurrences) (base : str) (f : files) : option (list str) :=
  let list_path := last_value "--source-file-list" occ in
  let limit := opt_int "--limit" occ in
  let found := tl_find t (join_path base (value_or "--source-filename-pattern" (u "**.xml*") occ)) limit f in
  match (if truthy list_path then tl_list t (otext list_path) (value_or "--source-file-list-column" (u "xml_url") occ) limit f else Some []) with
  | Some listed => Some (source_files list_path (last_value "--source-path" occ) listed found)
  | None => None
  end.
(** F L849-864, L888-898, L922-927, L979-1005; an executor without workers is a ValueError *)
Definition fix_start (argv : list str) (f : files) : fix_started :=
  match parse_argv (ag_dg a) fix_decls argv with
  | None => FixStops
  | Some occ =>
      match ag_process_cloud a occ, source_base (last_value "--source-base-path" occ) (last_value "--source-file-list" occ) (last_value "--source-path" occ) with
      | Some cl, Ok base =>
          match fix_sources_of occ base f with
          | None => FixStops
          | Some [] => FixNothing
          | Some srcs =>
              if (cl_workers cl <? 1)%Z then FixStops
              else FixRuns (value_or "--output-path" [] occ) base srcs (worker_count (Z.to_nat (cl_workers cl)) srcs) (has_flag "--multi-processing" occ)
          end
      | _, _ => FixStops
      end
  end.
(** the program as a whole: the files afterwards, and whether it ends with an exception *)
Inductive fix_program (argv : list str) (f : files) : files -> bool -> Prop :=
| fix_program_stops : fix_start argv f = FixStops -> fix_program argv f f true
| fix_program_nothing : fix_start argv f = FixNothing -> fix_program argv f f false
| fix_program_runs output base srcs workers multi k w : fix_start argv f = FixRuns output base srcs workers multi ->
    let tasks := map (fix_task (tl_jats t) output base) srcs in
    fix_steps (tl_jats t) output base srcs workers multi k (initial tasks f) w -> finished tasks w ->
    fix_program argv f (w_files w) (fix_run_fails (tl_jats t) output base srcs w).

(* ---------------------------------------------------------------- *)
(** ** download_source_files *)
(** D L28-40, L51-60, L70-93 *)
Definition download_decls : list decl :=
  help_decls ++
  [required "--document-file-list"; text "--document-base-path"; text "--document-file-column";
   required "--target-file-list"; text "--target-base-path"; text "--target-file-column";
   required "--document-output-path"; text "--document-output-filename-pattern";
   required "--target-output-path"; text "--target-output-filename-pattern";
   number a "--limit"; number a "--threads"; debug_decl].
(** D L43-48, L151-160 *)
Definition document_rows (occ : occurrences) (f : files) : option (list str) :=
  tl_list t (value_or "--document-file-list" [] occ) (value_or "--document-file-column" (u "source_url") occ) (opt_int "--limit" occ) f.
Definition target_rows (occ : occurrences) (f : files) : option (list str) :=
  tl_list t (value_or "--target-file-list" [] occ) (value_or "--target-file-column" (u "xml_url") occ) (opt_int "--limit" occ) f.
(** D L43-48, L63-67 *)
Definition document_config (occ : occurrences) : config :=
  mkConfig (last_value "--document-base-path" occ) (value_or "--document-output-path" [] occ) (value_or "--document-output-filename-pattern" (u "{filename}") occ).
Definition target_config (occ : occurrences) : config :=
  mkConfig (last_value "--target-base-path" occ) (value_or "--target-output-path" [] occ) (value_or "--target-output-filename-pattern" (u "{filename}") occ).
(** D L96-105, L292-346; a thread pool without threads is a ValueError *)
Definition download_start (argv : list str) (f : files) : option (list task * list task * nat) :=
  match parse_argv (ag_dg a) download_decls argv with
  | None => None
  | Some occ =>
      match document_rows occ f, target_rows occ f with
      | Some drows, Some trows =>
          match plan_copies (tl_special t) (tl_relative t) (tl_absolute t) f (document_config occ) (target_config occ) drows trows with
          | Ok (docs, tgts) =>
              let threads := int_or a "--threads" 1 occ in
              if (threads <? 1)%Z then None else Some (docs, tgts, Z.to_nat threads)
          | Err _ => None
          end
      | _, _ => None
      end
  end.
(** the program as a whole: the targets are copied after the documents, if none of these fails *)
Inductive download_program (argv : list str) (f : files) : files -> bool -> Prop :=
| download_stops : download_start argv f = None -> download_program argv f f true
| download_fails docs tgts threads k w : download_start argv f = Some (docs, tgts, threads) ->
    copy_steps docs threads k f w -> finished docs w -> run_fails docs false w = true -> download_program argv f (w_files w) true
| download_runs docs tgts threads k w k' w' : download_start argv f = Some (docs, tgts, threads) ->
    copy_steps docs threads k f w -> finished docs w -> run_fails docs false w = false ->
    copy_steps tgts threads k' (w_files w) w' -> finished tgts w' -> download_program argv f (w_files w') (run_fails tgts false w').
End Tools.
