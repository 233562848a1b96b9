(** Model of core/annotation/matching_annotator.py: the complex matcher
    ([MatchingAnnotator]).  The matching of two texts ([fuzzy_match]) and the match filters
    are parameters; the default filters are modelled too.  Not modelled: logging;
    the [match_detail_reporter] is in ModelReport.v.  The first range of a [SequenceMatch] is only shown in logs
    and left out.

    Choices are pulled lazily from a generator while the document is tagged between two
    calls of [find_next_best_matches]: a choice that was pulled before stays as it was,
    later ones see the tags at the time they are pulled. *)
From Verif Require Import Base ModelTags ModelTokenize ModelTei ModelTeiDoc ModelJoined ModelExtend ModelClusters
  ModelTarget ModelReference ModelFuzzyMatch ModelWordMatch ModelSimpleMatch.
Open Scope nat_scope.

(** target_annotation.py L49-63.  Sub annotations: name, value, bonding (their other
    fields are not used) *)
Record msub := mkMsub { ms_name : str; ms_value : tvalue; ms_bonding : bool }.
Record mann := mkMann { ma_name : str; ma_value : tvalue; ma_multiple : bool; ma_bonding : bool;
  ma_next : bool; ma_subs : list msub }.

(** L81-89, L130-141: a sequence with position *)
Record seqp := mkSeqp { sq_words : seqw (nat * nat); sq_pos : Z }.
Definition sq_text (s : seqp) : str := core_text (sq_words s).
(** L148-164: the second sequence of a match and the range in its text *)
Record smatch := mkSm { sm_seq : seqp; sm_range : Z * Z }.

(** L167-185: [PositionedSequenceSet], a set of positions *)
Definition is_close_to_any (max_gap : Z) (data : list Z) (position : Z) : bool :=
  if (max_gap =? 0)%Z || negb (nonempty data) then true
  else existsb (fun o => (Z.abs (position - o) <=? max_gap + 1)%Z) data.

(** L188-191: [offset_range_by] moves a range of the first sequence only: not needed.
    L194-197: [skip_whitespaces] *)
Fixpoint count_spaces (sp : N -> bool) (s : str) : nat :=
  match s with [] => 0 | x :: s' => if sp x then S (count_spaces sp s') else 0 end.
Definition skip_whitespaces (sp : N -> bool) (s : str) (start : Z) : Z :=
  (start + Z.of_nat (count_spaces sp (skipn (Z.to_nat start) s)))%Z.

(** L200-219: [get_fuzzy_match_filter]; thresholds and ratios are exact *)
Definition fm_filter := fmr -> option fmr -> bool -> res bool.
Definition get_fuzzy_match_filter (b_score : Q) (min_count : Z) (total : Q) (ratio_min_count : Z) (ratio_threshold : Q) : fm_filter :=
  fun fm fm_next previous =>
  do first <- (if (ratio_min_count <=? match_count fm)%Z then do r <- ratio fm ;; Ok (Qle_bool ratio_threshold r) else Ok false) ;;
  if first : bool then Ok true
  else
    do g <- b_gap_ratio fm ;;
    if negb (Qle_bool b_score g) then Ok false
    else if previous then Ok true
    else
      do next <- (if (min_count <=? match_count fm)%Z then
                    match fm_next with
                    | None => Ok true
                    | Some f => do r <- ratio f ;; Ok (Qle_bool ratio_threshold r)
                    end
                  else Ok false) ;;
      if next : bool then Ok true else do r <- a_ratio fm ;; Ok (Qle_bool total r).
(** L222-249: [get_simple_fuzzy_match_filter] *)
Definition simple_filter (score : Q) (min_count ratio_min_count : Z) : fm_filter :=
  get_fuzzy_match_filter score min_count score ratio_min_count score.
Definition DEFAULT_SEQ_FILTER : fm_filter := simple_filter (9 # 10) 5 50.
Definition DEFAULT_CHOICE_FILTER : fm_filter := simple_filter (9 # 10) 1 100.
Definition DEFAULT_MAX_MATCH_GAP : Z := 5%Z.

(* ------------------------------------------------------------------ *)
(** ** The iterators *)
(** L105-121 and L671-673: generator over the untagged sub sequences of the sequences.
    Those of the current sequence are fixed when it is reached; sub sequences have the same
    position and texts. *)
Record gen := mkGen { g_buffer : list seqp; g_rest : list seqp }.
Definition sub_sequences (d : doc) (s : seqp) : list seqp :=
  map (fun q => mkSeqp q (sq_pos s)) (untagged_sub_sequences (fun t => truthy (main_tag d (w_tok t))) (sq_words s)).
Fixpoint pull_rest (d : doc) (rest : list seqp) : option seqp * gen :=
  match rest with
  | [] => (None, mkGen [] [])
  | s :: rest' =>
      match sub_sequences d s with
      | [] => pull_rest d rest'
      | x :: l => (Some x, mkGen l rest')
      end
  end.
Definition pull (d : doc) (g : gen) : option seqp * gen :=
  match g_buffer g with
  | x :: l => (Some x, mkGen l (g_rest g))
  | [] => pull_rest d (g_rest g)
  end.
(** L335-336: the two iterators made by [tee] share the items pulled so far ([fi_log]).
    [fi_cur]: the next item of [current_choices]; [fi_next]: the next item of
    [next_choices], [islice] skips the first one. *)
Record finder := mkFinder { fi_log : list seqp; fi_gen : gen; fi_cur : nat; fi_next : nat }.
Definition new_finder (g : gen) : finder := mkFinder [] g 0 1.
(** pull until there are [length log + n] items *)
Fixpoint fill (d : doc) (n : nat) (log : list seqp) (g : gen) : list seqp * gen :=
  match n with
  | O => (log, g)
  | S n' => match pull d g with (None, g') => (log, g') | (Some x, g') => fill d n' (log ++ [x]) g' end
  end.
(** all items, as long as the document is not changed *)
Definition all_items (d : doc) (f : finder) : list seqp :=
  fi_log f ++ g_buffer (fi_gen f) ++ flat_map (sub_sequences d) (g_rest (fi_gen f)).
Fixpoint zip_longest {A} (a b : list A) : list (option A * option A) :=
  match a, b with
  | [], [] => []
  | x :: a', [] => (Some x, None) :: zip_longest a' []
  | [], y :: b' => (None, Some y) :: map (fun z => (None, Some z)) b'
  | x :: a', y :: b' => (Some x, Some y) :: zip_longest a' b'
  end.
Definition pairs (d : doc) (f : finder) : list (option seqp * option seqp) :=
  zip_longest (skipn (fi_cur f) (all_items d f)) (skipn (fi_next f) (all_items d f)).
(** after [k] steps of the first and at most [m] steps of any of the loops over the
    choices ([fi_cur f < fi_next f], so that the generator is exhausted when the loop has
    reached the end) *)
Definition advance (d : doc) (k m : nat) (f : finder) : finder :=
  let lg := fill d (fi_next f + m - length (fi_log f)) (fi_log f) (fi_gen f) in
  mkFinder (fst lg) (snd lg) (fi_cur f + k) (fi_next f + m).

(* ------------------------------------------------------------------ *)
Section Match.
Variable sp : N -> bool. (* str.isspace *)
Variable alpha : N -> bool. (* str.isalpha *)
Variable lower : str -> str. (* str.lower *)
(** the blocks [fuzzy_match(a, b)] finds (fuzzy_match.py L283-289) *)
Variable blocks : str -> str -> res (list block).
(** L299-311: [MatchingAnnotatorConfig] *)
Variable seq_filter choice_filter : fm_filter.
Variable max_gap : Z.
Variable begin_prefix : bool.

Definition dj : junk_fn := default_isjunk alpha.
Definition fuzzy_match (a b : str) : res fmr := do l <- blocks a b ;; Ok (mkF a b l dj).
(** L55-60, L70-71 *)
Definition nstr (s : str) : str := normalise_str lower s.
Definition njstr (s : str) : res str := remove_junk dj (nstr s).
(** L63-67, L74-78 *)
Definition nstr_value (v : tvalue) : tvalue := match v with VOne s => VOne (nstr s) | VMany l => VMany (map nstr l) end.
Definition njstr_value (v : tvalue) : res tvalue :=
  match v with VOne s => do r <- njstr s ;; Ok (VOne r) | VMany l => do r <- mapM njstr l ;; Ok (VMany r) end.

(** what a step of the loop over the choices leaves behind *)
Record step := mkStep { sp_matches : list smatch; sp_matched : list Z; sp_start : Z; sp_prev : bool; sp_last : bool }.

(** the match in the next choice, if any (L437-447, L484-493).  (Without next choice
    [None.position] would raise.) *)
Definition next_match (next : option seqp) (fm : fmr) (range : fmr -> Z * Z) : res (list smatch) :=
  if has_match fm then
    match next with Some n => Ok [mkSm n (range fm)] | None => Err AttributeError end
  else Ok [].
(** L390-396 *)
Definition combined (cs : str) (next : option seqp) : str :=
  match next with Some n => cs ++ u " " ++ sq_text n | None => cs end.
(** L409-457: regular match *)
Definition regular_step (s1 : str) (choice : seqp) (next : option seqp) (matched : list Z) (start : Z) (prev : bool) : res step :=
  let cs := sq_text choice in
  do fmc <- fuzzy_match s1 (combined cs next) ;;
  let (fm, fmn) := b_split_at dj fmc (slen cs) in
  do accept <- (if has_match fm then
                  do a <- seq_filter fm (Some fmn) prev ;;
                  if a : bool then Ok true
                  else do b <- seq_filter fmc None false ;; Ok (b && (fst (b_index_range fm) <? slen cs)%Z)
                else Ok false) ;;
  if accept : bool then
    do nm <- next_match next fmn b_index_range ;;
    let e := skip_whitespaces sp s1 (snd (a_index_range (if has_match fmn then fmn else fm))) in
    let at_end := (slen s1 <=? e)%Z in
    Ok (mkStep (mkSm choice (b_index_range fm) :: nm) (sq_pos choice :: matched) (if at_end then start else e) true at_end)
  else Ok (mkStep [] matched start prev false).
(** L458-494: the choice is longer than the rest of the text *)
Definition short_step (s1 : str) (choice : seqp) (next : option seqp) (matched : list Z) (start : Z) (prev : bool) : res step :=
  let cs := sq_text choice in
  do fmc <- fuzzy_match (combined cs next) (py_from s1 start) ;;
  let (fm, fmn) := a_split_at dj fmc (slen cs) in
  do accept <- (if has_match fm then
                  do a <- choice_filter fm None prev ;;
                  if a : bool then Ok true
                  else do b <- choice_filter fmc None false ;; Ok (b && (fst (a_index_range fmc) <? slen cs)%Z)
                else Ok false) ;;
  if accept : bool then
    do nm <- next_match next fmn a_index_range ;;
    Ok (mkStep (mkSm choice (a_index_range fm) :: nm) (map (fun m => sq_pos (sm_seq m)) nm ++ sq_pos choice :: matched) start prev true)
  else Ok (mkStep [] matched start prev false).

(** L371-523: [_do_find_next_best_matches] over the pairs of choices: the matches, the
    matched positions and the number of pairs taken.  (The first choice of a pair is never
    missing, see [C54_total].) *)
Fixpoint do_find (is_sub : bool) (s1 : str) (l : list (option seqp * option seqp)) (matched : list Z) (start : Z) (prev : bool)
    : res (list smatch * list Z * nat) :=
  match l with
  | [] => Ok ([], matched, 0)
  | (None, _) :: _ => Err AttributeError
  | (Some choice, next) :: l' =>
      if negb (is_close_to_any max_gap matched (sq_pos choice)) then
        do r <- do_find is_sub s1 l' matched start prev ;;
        let '(ms, mt, k) := r in Ok (ms, mt, S k)
      else if negb (nonempty (sq_text choice)) then Ok ([], matched, 1)
      else
        do s <- (if is_sub || (slen s1 - start <? slen (sq_text choice))%Z
                 then short_step s1 choice next matched start prev
                 else regular_step s1 choice next matched start prev) ;;
        if sp_last s then Ok (sp_matches s, sp_matched s, 1)
        else
          do r <- do_find is_sub s1 l' (sp_matched s) (sp_start s) (sp_prev s) ;;
          let '(ms, mt, k) := r in Ok (sp_matches s ++ ms, mt, S k)
  end.
(** L339-369: [find_next_best_matches], all of it; every string of a list starts at the
    same choices *)
Fixpoint find_list (is_sub : bool) (l : list (option seqp * option seqp)) (values : list str) (matched : list Z)
    : res (list smatch * list Z * list nat) :=
  match values with
  | [] => Ok ([], matched, [])
  | s :: values' =>
      do r <- do_find is_sub s l matched 0 false ;;
      let '(ms, mt, k) := r in
      do r' <- find_list is_sub l values' mt ;;
      let '(ms', mt', ks) := r' in Ok (ms ++ ms', mt', k :: ks)
  end.
(** The first iterator that [tee] returns for the current choices is the original, those
    for the next choices are all copies of an [islice]: later calls go on with the current
    choices where the search for the first string stopped, and with the next choices where
    the last of all searches stopped.  (With no string at all there is no later call.) *)
Definition find_next (is_sub : bool) (name : str) (bonding : bool) (value : tvalue) (d : doc) (f : finder) (matched : list Z)
    : res (list smatch * list Z * finder) :=
  match value with
  | VOne s =>
      do r <- do_find is_sub s (pairs d f) matched 0 false ;;
      let '(ms, mt, k) := r in Ok (ms, mt, advance d k k f)
  | VMany values =>
      do r <- find_list is_sub (pairs d f) values matched ;;
      let '(ms, mt, ks) := r in
      let keep := negb bonding || Nat.ltb 1 (length ms) || streq name (u "author") in
      Ok (if keep then ms else [], mt, advance d (hd 0 ks) (list_max ks) f)
  end.

(* ------------------------------------------------------------------ *)
(** ** Tagging *)
Definition tag_of (name : str) (first : bool) : ostr :=
  add_tag_prefix (Some name) (if begin_prefix then Some (if first then B_PREFIX else I_PREFIX) else None).
Definition match_tokens (m : smatch) : list (nat * nat) := core_tokens_between (sq_words (sm_seq m)) (sm_range m).
(** L570-606: [_apply_sub_annotations] *)
Definition sub_sequence (d : doc) (ps : list (nat * nat)) : seqp := mkSeqp (wrap sp nstr d ps) 0.
Definition apply_sub (s : seqp) (st : doc * list Z) (a : msub) : res (doc * list Z) :=
  do r <- find_next true (ms_name a) (ms_bonding a) (nstr_value (ms_value a)) (fst st) (new_finder (mkGen [s] [])) (snd st) ;;
  let '(ms, mt, _) := r in
  Ok (fold_left (fun d x => set_tag sp LSub (fst x) (tag_of (ms_name a) (snd x)) d)
        (firsts (flat_map match_tokens ms)) (fst st), mt).
Definition apply_subs (subs : list msub) (ps : list (nat * nat)) (d : doc) : res doc :=
  do r <- foldM (apply_sub (sub_sequence d ps)) (d, []) subs ;; Ok (fst r).
(** L622-634: one token *)
Definition apply_token (name : str) (st : doc * bool * list (nat * nat)) (p : nat * nat) : doc * bool * list (nat * nat) :=
  let '(d, first, all) := st in
  if truthy (main_tag d p) then st else (set_tag sp LMain p (tag_of name first) d, false, all ++ [p]).
(** L609-641: [_apply_annotations_to_matches] *)
Definition apply_match (a : mann) (st : doc * bool * list (nat * nat)) (m : smatch) : res (doc * bool * list (nat * nat)) :=
  let '(d1, first1, all1) := fold_left (apply_token (ma_name a)) (match_tokens m) st in
  match ma_subs a with
  | [] => Ok (d1, first1, all1)
  | _ => do d2 <- apply_subs (ma_subs a) all1 d1 ;; Ok (d2, first1, all1)
  end.
Definition apply_matches (a : mann) (ms : list smatch) (d : doc) : res doc :=
  do r <- foldM (apply_match a) (d, true, []) ms ;; Ok (fst (fst r)).

(* ------------------------------------------------------------------ *)
(** ** The annotator *)
(** L549-553: by position, then by range *)
Definition sm_leb (a b : smatch) : bool :=
  (sq_pos (sm_seq a) <? sq_pos (sm_seq b))%Z
  || ((sq_pos (sm_seq a) =? sq_pos (sm_seq b))%Z && range_leb (sm_range a) (sm_range b)).
Definition sorted_matches (l : list smatch) : list smatch := sort sm_leb l.
(** L556-567; the matches are never empty where this is used *)
Definition position_range (l : list smatch) : Z * Z :=
  match map (fun m => sq_pos (sm_seq m)) l with
  | [] => (0, 0)%Z
  | x :: l' => (fold_left Z.min l' x, fold_left Z.max l' x)
  end.
Definition distance_between (l1 l2 : list smatch) : Z :=
  let (s1, e1) := position_range l1 in
  let (s2, e2) := position_range l2 in
  Z.min (Z.abs (s2 - e1)) (Z.abs (s1 - e2)).

Notation cond := (option (mann * list smatch)).
(** L694-731: the loop for one target annotation *)
Fixpoint target_loop (fuel : nat) (a : mann) (value : tvalue) (d : doc) (cm : cond) (f : finder) (matched : list Z)
    : res (doc * cond * list Z) :=
  match fuel with
  | O => Err OutOfFuel
  | S fuel' =>
      do r <- find_next false (ma_name a) (ma_bonding a) value d f matched ;;
      let '(found, mt, f') := r in
      match sorted_matches found with
      | [] => Ok (d, None, mt)
      | ms =>
          do d1 <- match cm with
                   | Some (ca, cms) => if (distance_between ms cms <=? 1)%Z then apply_matches ca cms d else Ok d
                   | None => Ok d
                   end ;;
          do r2 <- (if ma_next a then Ok (d1, Some (a, ms)) else do d2 <- apply_matches a ms d1 ;; Ok (d2, cm)) ;;
          let (d2, cm2) := (r2 : doc * cond) in
          if ma_multiple a then target_loop fuel' a value d2 cm2 f' mt else Ok (d2, cm2, mt)
      end
  end.
(** L657-677: the sequences; the texts do not change *)
Fixpoint with_positions (i : Z) (l : list (seqw (nat * nat))) : list seqp :=
  match l with [] => [] | q :: l' => mkSeqp q i :: with_positions (i + 1) l' end.
Definition wrap_junk (d : doc) (ps : list (nat * nat)) : res (seqw (nat * nat)) :=
  mapM (fun t => do s <- njstr (w_str t) ;; Ok (mkW (w_tok t) s (w_ws t))) (wrap sp (fun s => s) d ps).
Definition sequences (d : doc) : res (list seqp) :=
  do l <- mapM (wrap_junk d) (initial_sequences sp d) ;; Ok (with_positions 0 l).
(** L679-731: document, conditional match and matched choices by name *)
Definition target_step (fuel : nat) (seqs : list seqp) (st : doc * cond * list (str * list Z)) (a : mann)
    : res (doc * cond * list (str * list Z)) :=
  let '(d, cm, mmap) := st in
  do value <- njstr_value (ma_value a) ;;
  let matched := if ma_bonding a then match dict_get (ma_name a) mmap with Some l => l | None => [] end else [] in
  do r <- target_loop fuel a value d cm (new_finder (mkGen [] seqs)) matched ;;
  let '(d', cm', mt) := r in
  Ok (d', cm', if ma_bonding a then dict_set (ma_name a) mt mmap else mmap).
(** L657-732: [annotate] *)
Definition matching_annotate (fuel : nat) (targets : list mann) (d : doc) : res doc :=
  do seqs <- sequences d ;;
  do r <- foldM (target_step fuel seqs) (d, None, []) targets ;;
  Ok (fst (fst r)).
End Match.
