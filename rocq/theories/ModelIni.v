(** Model of configuration files: [configparser] (Python 3.7, default settings) as used by
    core/annotation/target_annotation.py L71-81 (T) and
    annotation/segmentation_annotator.py L76-95 (S).
    Simplified: all exceptions of [configparser] are the same error; a file that cannot be
    parsed is given up at its first error (configparser reads on, but raises at the end). *)
From Verif Require Import Base ModelTarget ModelMapping ModelJoined ModelJatsText ModelWordMatch ModelSegmentation.
Open Scope list_scope.
Open Scope nat_scope.

Section Ini.
Variable sp : N -> bool.    (* white space *)
Variable lower : str -> str. (* [optionxform] *)

Definition ch_open : N := 91%N.    (* [ *)
Definition ch_close : N := 93%N.   (* ] *)
Definition ch_colon : N := 58%N.
Definition ch_hash : N := 35%N.
Definition ch_semicolon : N := 59%N.
Definition ch_newline : N := 10%N.
Definition ch_percent : N := 37%N.
Definition ch_lparen : N := 40%N.
Definition ch_rparen : N := 41%N.

(* ------------------------------------------------------------------ *)
(** ** [RawConfigParser._read] *)
Definition DEFAULT : str := u "DEFAULT".
(** raw values are lists of lines *)
Definition raw := list (str * list str).
(** sections with the defaults among them; the current section, the current option, the indentation *)
Record ini_state := mkIni { is_all : list (str * raw); is_section : ostr; is_option : ostr; is_indent : nat }.
Definition empty_ini : ini_state := mkIni [(DEFAULT, [])] None None 0.
(** [NONSPACECRE.search(line).start()] *)
Fixpoint indent_of (line : str) : nat := match line with x :: l => if sp x then S (indent_of l) else 0 | [] => 0 end.
Definition is_comment (value : str) : bool := match value with x :: _ => N.eqb x ch_hash || N.eqb x ch_semicolon | [] => false end.
(** [SECTCRE]: ["\[(?P<header>[^]]+)\]"] at the start *)
Definition section_header (value : str) : ostr :=
  match value with
  | x :: rest => if N.eqb x ch_open then match cut ch_close rest with Some ((_ :: _) as h, _) => Some h | _ => None end else None
  | [] => None
  end.
(** [_optcre]: what is before the first delimiter, and what is after it *)
Definition is_delimiter (x : N) : bool := N.eqb x ch_eq || N.eqb x ch_colon.
Fixpoint cut_delimiter (value : str) : option (str * str) :=
  match value with
  | [] => None
  | x :: rest => if is_delimiter x then Some ([], rest) else option_map (fun ab => (x :: fst ab, snd ab)) (cut_delimiter rest)
  end.
Definition raw_of (all : list (str * raw)) (name : str) : raw := match dict_get name all with Some o => o | None => [] end.
Definition append_line (st : ini_state) (section option line : str) : ini_state :=
  let o := raw_of (is_all st) section in
  let lines := match dict_get option o with Some l => l | None => [] end in
  mkIni (dict_set section (dict_set option (lines ++ [line]) o) (is_all st)) (is_section st) (is_option st) (is_indent st).
Definition read_line (st : ini_state) (line : str) : res ini_state :=
  let value := strip sp line in
  if is_comment value then Ok st
  else match value with
  | [] => match is_section st, is_option st with Some s, Some ((_ :: _) as o) => Ok (append_line st s o []) | _, _ => Ok st end
  | _ =>
      let level := indent_of line in
      match is_section st, is_option st, is_indent st <? level with
      | Some s, Some ((_ :: _) as o), true => Ok (append_line st s o value)
      | _, _, _ =>
          match section_header value with
          | Some name =>
              if streq name DEFAULT then Ok (mkIni (is_all st) (Some name) None level)
              else match dict_get name (is_all st) with
                   | Some _ => Err RuntimeError (* DuplicateSectionError *)
                   | None => Ok (mkIni (is_all st ++ [(name, [])]) (Some name) None level)
                   end
          | None =>
              match is_section st with
              | None => Err RuntimeError (* MissingSectionHeaderError *)
              | Some s =>
                  match cut_delimiter value with
                  | None => Err RuntimeError
                  | Some (before, after) =>
                      match rstrip sp before with
                      | [] => Err RuntimeError
                      | name =>
                          let key := lower name in
                          match dict_get key (raw_of (is_all st) s) with
                          | Some _ => Err RuntimeError (* DuplicateOptionError *)
                          | None => Ok (mkIni (dict_set s (dict_set key [strip sp after] (raw_of (is_all st) s)) (is_all st)) (Some s) (Some key) level)
                          end
                      end
                  end
              end
          end
      end
  end.
(** universal newlines *)
Fixpoint universal (s : str) : str :=
  match s with
  | [] => []
  | x :: s' => if N.eqb x 13 then ch_newline :: match s' with 10%N :: s'' => universal s'' | _ => universal s' end else x :: universal s'
  end.
Definition file_lines (text : str) : list str :=
  let l := split_on ch_newline (universal text) in
  match rev l with [] :: r => rev r | _ => l end.
(** [_join_multiline_values] *)
Definition join_lines (lines : list str) : str := rstrip sp (join_str [ch_newline] lines).
Definition read_ini (text : str) : res mapping :=
  do st <- foldM read_line empty_ini (file_lines text) ;;
  Ok (map (fun section => (fst section, map (fun o => (fst o, join_lines (snd o))) (snd section))) (is_all st)).

(* ------------------------------------------------------------------ *)
(** ** [BasicInterpolation] and access *)
Definition sections (ini : mapping) : list str := filter (fun s => negb (streq s DEFAULT)) (map fst ini).
Definition has_section (ini : mapping) (s : str) : bool := mem s (sections ini).
(** [_unify_values] *)
Definition unified (ini : mapping) (s : str) : options :=
  dict_update (match dict_get DEFAULT ini with Some d => d | None => [] end) (match dict_get s ini with Some d => d | None => [] end).
(** ["%\(([^)]+)\)s"] at the start: the name and the rest *)
Definition reference_at (rest : str) : option (str * str) :=
  match rest with
  | x :: y :: rest' =>
      if N.eqb x ch_percent && N.eqb y ch_lparen then
        match cut ch_rparen rest' with
        | Some ((_ :: _) as name, 115%N :: rest'') => Some (name, rest'')
        | _ => None
        end
      else None
  | _ => None
  end.
Section Interpolate.
Variable d : options.
(** the loop of [_interpolate_some]; [deeper]: for the values that are referred to, [n]: bound of the loop *)
Fixpoint interpolate_loop (deeper : str -> res str) (n : nat) (rest : str) : res str :=
  match n with
  | 0 => Err OutOfFuel
  | S n' =>
      match rest with
      | [] => Ok []
      | x :: rest1 =>
          if negb (N.eqb x ch_percent) then do r <- interpolate_loop deeper n' rest1 ;; Ok (x :: r)
          else match rest1 with
          | [] => Err RuntimeError
          | y :: rest2 =>
              if N.eqb y ch_percent then do r <- interpolate_loop deeper n' rest2 ;; Ok (ch_percent :: r)
              else match reference_at rest with
              | Some (name, rest3) =>
                  match dict_get (lower name) d with
                  | None => Err RuntimeError
                  | Some v =>
                      do r <- (if has ch_percent v then deeper v else Ok v) ;;
                      do r' <- interpolate_loop deeper n' rest3 ;; Ok (r ++ r')
                  end
              | None => Err RuntimeError
              end
          end
      end
  end.
(** [depth]: levels that are left *)
Fixpoint interpolate (depth : nat) : str -> res str :=
  match depth with
  | 0 => fun _ => Err RuntimeError
  | S depth' => fun value => interpolate_loop (interpolate depth') (S (length value)) value
  end.
End Interpolate.
Definition MAX_DEPTH : nat := 10.
(** [items]; NoSectionError for a section that is not there *)
Definition get_items (ini : mapping) (s : str) : res options :=
  if negb (has_section ini s || streq s DEFAULT) then Err RuntimeError
  else let d := unified ini s in
    mapM (fun kv => do v <- interpolate d MAX_DEPTH (snd kv) ;; Ok (fst kv, v)) d.

(* ------------------------------------------------------------------ *)
(** ** The two configuration files *)
(** T L71-81 *)
Definition parse_xml_mapping (text : str) : res mapping :=
  do ini <- read_ini text ;; mapM (fun s => do o <- get_items ini s ;; Ok (s, o)) (sections ini).

Variable to_int : str -> option Z.
Variable parse_list : str -> list str. (* sciencebeam_utils.utils.string.parse_list *)
Variable order : list str -> list str. (* [set(...)], in its order *)
(** [getint] with a fallback for a missing section or option *)
Definition getint (ini : mapping) (s option : str) (fallback : Z) : res Z :=
  if negb (has_section ini s) then Ok fallback
  else match dict_get (lower option) (unified ini s) with
       | None => Ok fallback
       | Some v => do v' <- interpolate (unified ini s) MAX_DEPTH v ;; match to_int v' with Some z => Ok z | None => Err ValueError end
       end.
(** S L76-95 *)
Definition parse_segmentation_config (text : str) : res seg_config :=
  do ini <- read_ini text ;;
  do front <- getint ini (u "config") (u "front_max_start_line_index") 0%Z ;;
  do header <- getint ini (u "config") (u "page_header_max_first_line_index") 50%Z ;;
  do tags <- get_items ini (u "tags") ;;
  Ok (mkSegConfig (map (fun kv => (fst kv, order (parse_list (snd kv)))) tags) front header false).
End Ini.
