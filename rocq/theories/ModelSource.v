(** Model of how the files of a source are found and prepared: auto_annotate_figure.py
    L92-97 (G below), utils/regex.py (X), auto_annotate_utils.py L624-631 (U). *)
From Verif Require Import Base ModelFuzzyMatch ModelTarget ModelMapping ModelPipeline ModelCommands.
Open Scope list_scope.
Open Scope nat_scope.

(** G L92-97: [fix_source_file_to], as a function of the content (bytes).  The fulltext
    command has a different fix (ModelFixXml). *)
Definition open_content : str := u "<content>".
Definition close_content : str := u "</content>".
Definition fix_source (data : str) : str :=
  if contains close_content data && negb (contains open_content data) then py_replace close_content [] data else data.

(** X L9-14 *)
Record substitution := mkSubst { su_match : str; su_replace : str; su_suffix : str; su_options : str }.
(** X L17-28: [_parse_subsitution_pattern]; [regex_pattern[0]] of an empty string is an
    IndexError, unpacking another number of fragments a ValueError *)
Definition parse_substitution (pattern : str) : res substitution :=
  match pattern with
  | [] => Err IndexError
  | d :: _ =>
      match split_on d pattern with
      | [suffix; m; r; options] => Ok (mkSubst m r suffix options)
      | _ => Err ValueError
      end
  end.

Section Names.
(** [re.sub(pattern, repl, string)] *)
Variable re_sub : str -> str -> str -> res str.
(** X L31-37: [regex_change_name] *)
Definition regex_change_name (name pattern : str) : res str :=
  do s <- parse_substitution pattern ;; re_sub (su_match s) (su_replace s) name.
(** U L625-632: [get_target_xml_for_source_file] *)
Definition target_xml_path (xml_path pattern source : str) : res str :=
  do name <- regex_change_name (basename source) pattern ;; Ok (join_path xml_path name).
End Names.
