(** Model of the match detail reports of the complex matcher
    (core/annotation/matching_annotator.py): the search for one value with a
    [match_detail_reporter] (L371-523) and [CsvMatchDetailReporter] (L526-546).

    The search is written again with the reporting in place, from the code and not from
    [do_find] of ModelMatch.v.  A row is only reported if all its cells can be written:
    the [repr] of the three matches computes their ratios (fuzzy_match.py L270-280).  Not
    modelled: how values and rows are written to the file (package sciencebeam_utils and
    module csv) and the columns [tag] and [match_multiple], which are those of the target
    annotation; the details of a match ([detailed_str], L259-265) are a text of its blocks
    that always exists. *)
From Verif Require Import Base ModelTags ModelTokenize ModelTei ModelTeiDoc ModelJoined ModelExtend ModelClusters
  ModelTarget ModelReference ModelFuzzyMatch ModelWordMatch ModelSimpleMatch ModelMatch.
Open Scope nat_scope.

(** L494-515: a row *)
Record row := mkRow {
  rw_pre : str; rw_current : str; rw_start : Z; rw_next_start : Z; rw_end : option bool;
  rw_combined : str; rw_choice : str; rw_next : option str; rw_accepted : bool; rw_short : bool; rw_sub : bool;
  rw_fm_combined : fmr; rw_fm : fmr; rw_fm_next : fmr }.
(** fuzzy_match.py L270-280: what [__repr__] computes *)
Definition shown (f : fmr) : res (Q * Q * Q) :=
  do r <- ratio f ;; do a <- a_ratio f ;; do g <- b_gap_ratio f ;; Ok (r, a, g).
(** L526-546: the rows are written with ids from 1 on; a row that cannot be shown raises *)
Fixpoint written (id : Z) (l : list row) : res (list (Z * row)) :=
  match l with
  | [] => Ok []
  | r :: l' =>
      do _ <- shown (rw_fm_combined r) ;; do _ <- shown (rw_fm r) ;; do _ <- shown (rw_fm_next r) ;;
      do w <- written (id + 1) l' ;; Ok ((id, r) :: w)
  end.

Section Report.
Variable sp : N -> bool.
Variable alpha : N -> bool.
Variable blocks : str -> str -> res (list block).
Variable seq_filter choice_filter : fm_filter.
Variable max_gap : Z.
Notation dj := (dj alpha).

(** L389-457 and L494-515: regular match *)
Definition regular_reported (is_sub : bool) (s1 : str) (choice : seqp) (next : option seqp) (matched : list Z) (start : Z) (prev : bool)
    : res (step * row) :=
  let cs := sq_text choice in
  let ns := option_map sq_text next in
  let cc := match ns with Some n => cs ++ u " " ++ n | None => cs end in
  do l <- blocks s1 cc ;;
  let fmc := mkF s1 cc l dj in
  let fm := fst (b_split_at dj fmc (slen cs)) in
  let fmn := snd (b_split_at dj fmc (slen cs)) in
  let report next_start reached accepted :=
    mkRow (py_slice s1 0 start) (py_from s1 start) start next_start reached cc cs ns accepted false is_sub fmc fm fmn in
  do accepted <- (if has_match fm then
                    do a <- seq_filter fm (Some fmn) prev ;;
                    if a : bool then Ok true
                    else do b <- seq_filter fmc None false ;; Ok (b && (fst (b_index_range fm) <? slen cs)%Z)
                  else Ok false) ;;
  if accepted : bool then
    do nm <- next_match next fmn b_index_range ;;
    let e := skip_whitespaces sp s1 (snd (a_index_range (if has_match fmn then fmn else fm))) in
    let reached := (slen s1 <=? e)%Z in
    let start' := if reached then start else e in
    Ok (mkStep (mkSm choice (b_index_range fm) :: nm) (sq_pos choice :: matched) start' true reached, report start' (Some reached) true)
  else Ok (mkStep [] matched start prev false, report start None false).
(** L458-515: the choice is longer than the rest of the text *)
Definition short_reported (is_sub : bool) (s1 : str) (choice : seqp) (next : option seqp) (matched : list Z) (start : Z) (prev : bool)
    : res (step * row) :=
  let cs := sq_text choice in
  let ns := option_map sq_text next in
  let cc := match ns with Some n => cs ++ u " " ++ n | None => cs end in
  do l <- blocks cc (py_from s1 start) ;;
  let fmc := mkF cc (py_from s1 start) l dj in
  let fm := fst (a_split_at dj fmc (slen cs)) in
  let fmn := snd (a_split_at dj fmc (slen cs)) in
  let report accepted :=
    mkRow (py_slice s1 0 start) (py_from s1 start) start start None cc cs ns accepted true is_sub fmc fm fmn in
  do accepted <- (if has_match fm then
                    do a <- choice_filter fm None prev ;;
                    if a : bool then Ok true
                    else do b <- choice_filter fmc None false ;; Ok (b && (fst (a_index_range fmc) <? slen cs)%Z)
                  else Ok false) ;;
  if accepted : bool then
    do nm <- next_match next fmn a_index_range ;;
    Ok (mkStep (mkSm choice (a_index_range fm) :: nm) (map (fun m => sq_pos (sm_seq m)) nm ++ sq_pos choice :: matched) start prev true, report true)
  else Ok (mkStep [] matched start prev false, report false).
(** L371-523: the matches, the matched positions, the number of pairs taken and the rows *)
Fixpoint do_find_reported (is_sub : bool) (s1 : str) (l : list (option seqp * option seqp)) (matched : list Z) (start : Z) (prev : bool)
    : res (list smatch * list Z * nat * list row) :=
  match l with
  | [] => Ok ([], matched, 0, [])
  | (None, _) :: _ => Err AttributeError
  | (Some choice, next) :: l' =>
      if negb (is_close_to_any max_gap matched (sq_pos choice)) then
        do r <- do_find_reported is_sub s1 l' matched start prev ;;
        let '(ms, mt, k, rows) := r in Ok (ms, mt, S k, rows)
      else if negb (nonempty (sq_text choice)) then Ok ([], matched, 1, [])
      else
        do s <- (if is_sub || (slen s1 - start <? slen (sq_text choice))%Z
                 then short_reported is_sub s1 choice next matched start prev
                 else regular_reported is_sub s1 choice next matched start prev) ;;
        let (s, reported) := s in
        if sp_last s then Ok (sp_matches s, sp_matched s, 1, [reported])
        else
          do r <- do_find_reported is_sub s1 l' (sp_matched s) (sp_start s) (sp_prev s) ;;
          let '(ms, mt, k, rows) := r in Ok (sp_matches s ++ ms, mt, S k, reported :: rows)
  end.
(** L339-369: all searches of a list one after the other *)
Fixpoint find_list_reported (is_sub : bool) (l : list (option seqp * option seqp)) (values : list str) (matched : list Z)
    : res (list smatch * list Z * list nat * list row) :=
  match values with
  | [] => Ok ([], matched, [], [])
  | s :: values' =>
      do r <- do_find_reported is_sub s l matched 0 false ;;
      let '(ms, mt, k, rows) := r in
      do r' <- find_list_reported is_sub l values' mt ;;
      let '(ms', mt', ks, rows') := r' in Ok (ms ++ ms', mt', k :: ks, rows ++ rows')
  end.
(** [find_next_best_matches] with a reporter that has written [id - 1] rows before *)
Definition find_next_reported (is_sub : bool) (name : str) (bonding : bool) (value : tvalue) (d : doc) (f : finder) (matched : list Z) (id : Z)
    : res (list smatch * list Z * finder * list (Z * row)) :=
  match value with
  | VOne s =>
      do r <- do_find_reported is_sub s (pairs d f) matched 0 false ;;
      let '(ms, mt, k, rows) := r in
      do w <- written id rows ;; Ok (ms, mt, advance d k k f, w)
  | VMany values =>
      do r <- find_list_reported is_sub (pairs d f) values matched ;;
      let '(ms, mt, ks, rows) := r in
      do w <- written id rows ;;
      let keep := negb bonding || Nat.ltb 1 (length ms) || streq name (u "author") in
      Ok (if keep then ms else [], mt, advance d (hd 0 ks) (list_max ks) f, w)
  end.
End Report.
