(** Model of the files of match details: core/annotation/matching_annotator.py L251-296
    ([MatchDebugFields], [DEFAULT_MATCH_DEBUG_COLUMNS]), L493-515 (the dictionary of a row),
    L526-546 ([CsvMatchDetailReporter]), auto_annotate_utils.py L430-436
    ([get_match_detail_reporter]).

    [csv.writer] is that of Python 3.7 with its default dialect (excel: quotes where needed,
    doubled quotes, lines end with carriage return and line feed); [write_csv_row] of
    sciencebeam_utils hands the row over to it.  The delimiter, which sciencebeam_utils
    chooses by the file name, and the texts of matches ([repr], [detailed_str]) are
    arguments.  Not modelled: buffering and the encoding of the file. *)
From Verif Require Import Base ModelTags ModelTei ModelTeiDoc ModelJoined ModelFuzzyMatch ModelMatch ModelReport.
Open Scope list_scope.

Definition quote : N := 34%N.
(** ** csv.writer *)
(** _csv.c, join_append_data: characters that need quotes; no escape character is set, its
    code is then 0 *)
Definition needs_quotes (delim c : N) : bool :=
  N.eqb c delim || N.eqb c 0 || N.eqb c quote || N.eqb c 13 || N.eqb c 10.
Definition field_text (delim : N) (s : str) : str :=
  if existsb (needs_quotes delim) s
  then quote :: flat_map (fun c => if N.eqb c quote then [quote; quote] else [c]) s ++ [quote]
  else s.
(** csv_writerow: a record that would be empty is quoted; [None] is written like an empty text *)
Definition record_text (delim : N) (cells : list ostr) : str :=
  let r := join_str [delim] (map (fun o => field_text delim (match o with Some s => s | None => [] end)) cells) in
  (match r, cells with [], _ :: _ => [quote; quote] | _, _ => r end) ++ [13%N; 10%N].

(** ** [str] of numbers and truth values *)
Fixpoint digits (fuel : nat) (n : N) : str :=
  match fuel with
  | O => []
  | S f => (if N.ltb n 10 then [] else digits f (N.div n 10)) ++ [(48 + N.modulo n 10)%N]
  end.
Definition show_z (z : Z) : str :=
  (if (z <? 0)%Z then u "-" else []) ++ digits (S (N.to_nat (Z.abs_N z))) (Z.abs_N z).
Definition show_bool (b : bool) : str := if b then u "True" else u "False".

(** ** The reporter *)
(** L275-296 *)
Definition ID : str := u "id".
Definition DEFAULT_COLUMNS : list str :=
  [ID; u "tag"; u "match_multiple"; u "tag_value_pre"; u "tag_value_current"; u "start_index"; u "next_start_index";
   u "reached_end"; u "choice_combined"; u "choice_current"; u "choice_next"; u "accepted"; u "tag_to_choice_match";
   u "sub_annotation"; u "fm_combined"; u "fm_combined_detailed"; u "fm_current"; u "fm_current_detailed";
   u "fm_next"; u "fm_next_detailed"].
(** L527-534: an empty list of fields counts as none *)
Definition reporter_fields (fields : option (list str)) : list str :=
  match fields with Some ((_ :: _) as l) => l | _ => DEFAULT_COLUMNS end.
(** L536-542: [row.get(k)] *)
Definition reported_cells (fields : list str) (id : Z) (row : list (str * ostr)) : list ostr :=
  map (fun k => if streq k ID then Some (show_z id) else match dict_get k row with Some v => v | None => None end) fields.
Record reporter := mkReporter { rp_text : str; rp_fields : list str; rp_id : Z }.
Definition new_reporter (delim : N) (fields : option (list str)) : reporter :=
  let f := reporter_fields fields in mkReporter (record_text delim (map Some f)) f 1.
Definition report (delim : N) (r : reporter) (row : list (str * ostr)) : reporter :=
  mkReporter (rp_text r ++ record_text delim (reported_cells (rp_fields r) (rp_id r) row)) (rp_fields r) (rp_id r + 1).
Definition reported_file (delim : N) (fields : option (list str)) (rows : list (list (str * ostr))) : str :=
  rp_text (fold_left (report delim) rows (new_reporter delim fields)).
(** auto_annotate_utils.py L430-436: no reporter without file name *)
Definition get_match_detail_reporter (delim_by_name : str -> N) (debug_match : ostr) : option reporter :=
  match debug_match with Some ((_ :: _) as name) => Some (new_reporter (delim_by_name name) None) | _ => None end.

(** L493-515: the dictionary of a row; [fm_combined and ...] : matches are true values *)
Section Row.
Variable show_match show_details : fmr -> str.
Definition row_dict (name : str) (multiple : bool) (r : row) : list (str * ostr) :=
  [(u "tag", Some name); (u "match_multiple", Some (show_bool multiple));
   (u "tag_value_pre", Some (rw_pre r)); (u "tag_value_current", Some (rw_current r));
   (u "start_index", Some (show_z (rw_start r))); (u "next_start_index", Some (show_z (rw_next_start r)));
   (u "reached_end", option_map show_bool (rw_end r));
   (u "choice_combined", Some (rw_combined r)); (u "choice_current", Some (rw_choice r)); (u "choice_next", rw_next r);
   (u "accepted", Some (show_bool (rw_accepted r))); (u "tag_to_choice_match", Some (show_bool (rw_short r)));
   (u "sub_annotation", Some (show_bool (rw_sub r)));
   (u "fm_combined", Some (show_match (rw_fm_combined r))); (u "fm_combined_detailed", Some (show_details (rw_fm_combined r)));
   (u "fm_current", Some (show_match (rw_fm r))); (u "fm_current_detailed", Some (show_details (rw_fm r)));
   (u "fm_next", Some (show_match (rw_fm_next r))); (u "fm_next_detailed", Some (show_details (rw_fm_next r)))].
End Row.
