(** Model of annotation/simple_matching_annotator.py L46-54, L95-145, L360-771 (S below),
    annotation/matching_utils.py L46-84 and L275-300 (U) and annotation/sub_tag_annotator.py.

    The fuzzy search, the regular expressions and [str.lower] are parameters: all
    theorems hold for whatever they return.  Tokens are identified by their position;
    their text does not change, so that the texts of sequences can be computed from the
    current document. *)
From Verif Require Import Base ModelTags ModelTokenize ModelTei ModelTeiDoc ModelJoined ModelExtend ModelClusters
  ModelTarget ModelReference.
Open Scope nat_scope.

Notation pos := (nat * nat)%type.

(** core/annotation/target_annotation.py L53-76: name, value and sub annotations (the
    latter with name and value) *)
Record tann := mkTann { an_name : str; an_value : tvalue; an_subs : list (str * tvalue) }.

(** S L67-94: [SimpleTagConfig]; S L100-143: [SimpleSimpleMatchingConfig]
    ([threshold] is part of the search functions) *)
Record tag_config := mkTagConfig {
  tc_prefix_regex : ostr; tc_spellings : list (str * list str); tc_merge : bool; tc_extend : bool;
  tc_max_chunks : nat; tc_block : ostr }.
Definition default_tag_config : tag_config := mkTagConfig None [] true true 1 None.
Record config := mkConfig {
  cf_lookahead : nat; cf_min_token_length : nat; cf_exact : nat; cf_begin_prefix : bool;
  cf_extend : bool; cf_use_sub : bool; cf_preserve_sub : bool; cf_tags : list (str * tag_config) }.
Definition get_tag_config (c : config) (name : str) : tag_config :=
  match dict_get name (cf_tags c) with Some t => t | None => default_tag_config end.

Section Simple.
Variable sp : N -> bool. (* str.isspace *)
Variable wd : N -> bool. (* \w *)
Variable lower : str -> str. (* str.lower *)
Variable escape_re : str -> str. (* re.escape *)
(** [re.search(pattern, text)]: the start of the match *)
Variable re_search : str -> str -> option Z.
(** [fuzzy_search_index_range_chunks(haystack, needle, max_chunks=...)] *)
Variable search_chunks : str -> str -> nat -> res (option (list irange)).
(** [iter_fuzzy_search_all_index_ranges(haystack, needle)]: a generator; an element that
    is an error is raised when it is reached *)
Variable search_all : str -> str -> list (res irange).
Variable c : config.
(** whether it is the [SubTagOnlyAnnotator] *)
Variable sub_only : bool.

(** U L47-52: [normalise_str] *)
Definition normalise_str (s : str) : str :=
  py_replace (u "'") [34%N] (py_replace (u "&apos;") [34%N]
    (py_replace [8201%N] (u " ") (py_replace [8211%N] (u "-") (py_replace [8212%N] (u "-") (lower s))))).
(** U L62-67: [normalise_and_remove_junk_str]; nothing is junk by default *)
Definition normalise (s : str) : str := normalise_str s.
(** S L48-56: [split_and_join_with_space] *)
Definition split_and_join (s : str) : str :=
  join_str (u " ") (filter (fun x => negb (blank sp x)) (split_nonword wd s)).

(* ------------------------------------------------------------------ *)
(** ** Sequences *)
(** U L97-102 and S L620: the token, if any *)
Definition at_pos (d : doc) (p : pos) : option tok :=
  match nth_error d (fst p) with Some l => nth_error l (snd p) | None => None end.
Definition main_tag (d : doc) (p : pos) : ostr := match at_pos d p with Some t => tag t | None => None end.
Definition sub_tag (d : doc) (p : pos) : ostr := match at_pos d p with Some t => sub t | None => None end.
(** U L189-239: [SequenceWrapper] with a filter for the texts; the text of a token is the
    stripped one (grobid_training_tei.py L631-632) *)
Definition wrap (f : str -> str) (d : doc) (ps : list pos) : seqw pos :=
  flat_map (fun p => match at_pos d p with
                     | Some t => [mkW p (f (strip sp (tx t))) (match ws t with Some w => w | None => u " " end)]
                     | None => []
                     end) ps.
(** U L275-292: [PendingSequences.from_structured_document] *)
Fixpoint line_words (i : nat) (d : doc) : list (list pos) :=
  match d with [] => [] | l :: d' => word_indices sp i 0 l :: line_words (S i) d' end.
Definition untagged (d : doc) (p : pos) : bool := negb (truthy (main_tag d p)).
Definition initial_sequences (d : doc) : list (list pos) :=
  filter nonempty (map (filter (untagged d)) (line_words 0 d)).
(** U L264-273 and S L688-690: the text of the pending sequences *)
Definition pending_text (limit : nat) (d : doc) (qs : list (list pos)) : list (seqw pos) :=
  map (wrap normalise d) (pending_sequences (fun p => negb (untagged d p)) limit qs).
Definition text_of (t : list (seqw pos)) : str := seqs_text [10%N] [] t.

(* ------------------------------------------------------------------ *)
(** ** Matching *)
Definition found (r : option (list irange)) : bool := match r with Some (_ :: _) => true | _ => false end.
(** S L386-412: [get_fuzzy_matching_index_range_chunks] *)
Definition matching_chunks (haystack needle : str) (max_chunks : nat) : res (option (list irange)) :=
  if Nat.ltb (length needle) (cf_min_token_length c) then Ok None
  else
    let target := normalise_str needle in
    let h := if Nat.ltb (length target) (cf_exact c) then py_replace [10%N] (u " ") haystack else haystack in
    do r <- search_chunks h target max_chunks ;;
    if found r then Ok r else search_chunks h (split_and_join (normalise needle)) max_chunks.
(** S L417-437: with alternative spellings *)
Fixpoint first_spelling (haystack : str) (max_chunks : nat) (l : list str) : res (option (list irange)) :=
  match l with
  | [] => Ok None
  | x :: l' =>
      do r <- matching_chunks haystack x max_chunks ;;
      if found r then Ok r else first_spelling haystack max_chunks l'
  end.
Definition spelling_chunks (haystack needle : str) (spellings : list (str * list str)) (max_chunks : nat)
    : res (option (list irange)) :=
  do r <- matching_chunks haystack needle max_chunks ;;
  if found r || negb (nonempty spellings) then Ok r
  else first_spelling haystack max_chunks (match dict_get needle spellings with Some l => l | None => [] end).
(** S L439-446: one range from the first to the last chunk ([max_chunks] is 1 by default) *)
Definition spelling_range (haystack needle : str) (spellings : list (str * list str)) : res (option irange) :=
  do r <- spelling_chunks haystack needle spellings 1 ;;
  Ok (match r with Some ((x :: _) as l) => Some (fst x, snd (last l x)) | _ => None end).
Fixpoint ranges_of_values (haystack : str) (spellings : list (str * list str)) (l : list str) : res (list irange) :=
  match l with
  | [] => Ok []
  | v :: l' =>
      do r <- spelling_range haystack v spellings ;;
      do rs <- ranges_of_values haystack spellings l' ;;
      Ok (match r with Some x => x :: rs | None => rs end)
  end.
(** S L572-630: [iter_matching_index_ranges] for one target annotation *)
Definition matching_ranges (text : list (seqw pos)) (a : tann) : res (list irange) :=
  let tc := get_tag_config c (an_name a) in
  match an_value a with
  | VMany l =>
      do rs <- ranges_of_values (text_of text) (tc_spellings tc) l ;;
      match rs with
      | [] => Ok []
      | _ => do s <- select_index_ranges rs ;; do r <- merge_index_ranges (fst s) ;; Ok [r]
      end
  | VOne v =>
      do r <- spelling_chunks (text_of text) v (tc_spellings tc) (tc_max_chunks tc) ;;
      Ok (match r with Some l => l | None => [] end)
  end.

(* ------------------------------------------------------------------ *)
(** ** Prefixes *)
(** S L445-452: [get_sub_tag_placeholders] *)
Definition placeholders (subs : list (str * tvalue)) : list (str * str) :=
  fold_left (fun d nv => match snd nv with VOne v => dict_set (fst nv) v d | VMany _ => d end) subs [].
(** S L457-464: [re.sub(r'{([^}]+)}', ...)]: from a brace up to the next closing one, if
    there is something in between *)
Fixpoint until_brace (acc s : str) : option (str * str) :=
  match s with
  | [] => None
  | x :: s' => if N.eqb x 125 then Some (rev acc, s') else until_brace (x :: acc) s'
  end.
Fixpoint resolve_go (ph : list (str * str)) (skip : nat) (s : str) : str :=
  match s with
  | [] => []
  | x :: s' =>
      match skip with
      | S k => resolve_go ph k s'
      | O =>
          if N.eqb x 123 then
            match until_brace [] s' with
            | Some ((_ :: _) as name, _) =>
                escape_re (match dict_get name ph with Some v => v | None => u "NOT_FOUND" end)
                ++ resolve_go ph (length name + 1) s'
            | _ => x :: resolve_go ph 0 s'
            end
          else x :: resolve_go ph 0 s'
      end
  end.
Definition resolve_placeholders (pattern : str) (ph : list (str * str)) : str := resolve_go ph 0 pattern.
(** S L463-489: [apply_match_prefix_regex_to_index_range] *)
Definition with_prefix (text : list (seqw pos)) (r : irange) (a : tann) : irange :=
  match tc_prefix_regex (get_tag_config c (an_name a)) with
  | Some ((_ :: _) as pattern) =>
      if (0 <? fst r)%Z then
        match re_search (resolve_placeholders pattern (placeholders (an_subs a)))
                        (firstn (Z.to_nat (fst r)) (text_of text)) with
        | Some s => (s, snd r)
        | None => r
        end
      else r
  | _ => r
  end.

(* ------------------------------------------------------------------ *)
(** ** Tagging *)
(** S L507-511, L557-561 *)
Definition full_tag (name : str) (first : bool) : ostr :=
  add_tag_prefix (Some name) (if cf_begin_prefix c then Some (if first then B_PREFIX else I_PREFIX) else None).
(** grobid_training_tei.py L645-649 at a position *)
Definition set_tag_only_at (lv : level) (p : pos) (v : ostr) (d : doc) : doc :=
  update_nth (fst p) (update_nth (snd p) (set_tag_only lv v)) d.
Definition set_main (p : pos) (v : ostr) (d : doc) : doc :=
  if cf_preserve_sub c then set_tag_only_at LMain p v d else set_tag sp LMain p v d.
Definition firsts {A} (l : list A) : list (A * bool) :=
  match l with [] => [] | x :: l' => (x, true) :: map (fun y => (y, false)) l' end.
(** S L491-516: [update_annotation_for_index_range] *)
Definition update_range (text : list (seqw pos)) (r : irange) (name : str) (d : doc) : doc :=
  if sub_only then d
  else
    fold_left (fun d x => set_main (fst x) (full_tag name (snd x)) d)
      (firsts (filter (untagged d) (all_tokens_between [10%N] [] text r))) d.
(** S L541-566: the loop over the matches of a sub annotation *)
Fixpoint first_free (sub_text : list (seqw pos)) (name : str) (rs : list (res irange)) (d : doc) : res doc :=
  match rs with
  | [] => Ok d
  | Err e :: _ => Err e
  | Ok r :: rs' =>
      let ps := all_tokens_between [10%N] [] sub_text r in
      if existsb (fun p => truthy (sub_tag d p)) ps then first_free sub_text name rs' d
      else Ok (fold_left (fun d x => set_tag sp LSub (fst x) (full_tag name (snd x)) d) (firsts ps) d)
  end.
(** S L518-570: [process_sub_annotations] *)
Definition sub_step (sub_text : list (seqw pos)) (d : doc) (nv : str * tvalue) : res doc :=
  match snd nv with
  | VMany _ => Err AssertionError
  | VOne v => first_free sub_text (fst nv) (search_all (lower (text_of sub_text)) (lower v)) d
  end.
Definition sub_annotations (text : list (seqw pos)) (r : irange) (subs : list (str * tvalue)) (d : doc) : res doc :=
  match subs with
  | [] => Ok d
  | _ => foldM (sub_step [wrap (fun s => s) d (all_tokens_between [10%N] [] text r)]) d subs
  end.
(** S L712-731: the loop over the ranges *)
Definition range_step (text : list (seqw pos)) (a : tann) (d : doc) (r0 : irange) : res doc :=
  let r := with_prefix text r0 a in
  let d1 := update_range text r (an_name a) d in
  if cf_use_sub c then sub_annotations text r (an_subs a) d1 else Ok d1.

(** S L663-731: document, current sequences and block name, annotations without match *)
Record state := mkState { st_doc : doc; st_seqs : list (list pos); st_block : ostr; st_left : list tann }.
Definition block_name (name : str) : str :=
  match tc_block (get_tag_config c name) with Some ((_ :: _) as b) => b | _ => u "default" end.
Definition process_one (all : list (list pos)) (s : state) (a : tann) : res state :=
  let d := st_doc s in
  let block := block_name (an_name a) in
  let not_found := mkState d (st_seqs s) (st_block s) (st_left s ++ [a]) in
  let text := pending_text (cf_lookahead c) d (st_seqs s) in
  do rs <- matching_ranges text a ;;
  match rs with
  | _ :: _ =>
      do d' <- foldM (range_step text a) d rs ;; Ok (mkState d' (st_seqs s) (st_block s) (st_left s))
  | [] =>
      if ostreq (st_block s) (Some block) then Ok not_found
      else
        let text := pending_text 0 d all in
        do rs <- matching_ranges text a ;;
        match rs with
        | [] => Ok not_found
        | _ =>
            do r <- merge_index_ranges rs ;;
            let seqs := map (map w_tok) (sequences_between [10%N] [] text (fst r, seqs_end_index [10%N] [] text)) in
            do d' <- foldM (range_step text a) d rs ;; Ok (mkState d' seqs (Some block) (st_left s))
        end
  end.
(** S L651-731: [process_target_annotations]; the groups of consecutive annotations with
    the same name are processed one annotation after the other, and the name of the group
    is that of the annotation *)
Definition process_targets (targets : list tann) (d : doc) : res state :=
  let all := initial_sequences d in
  foldM (process_one all) (mkState d all None []) targets.

(** S L632-649: [extend_annotations_to_whole_line] *)
Definition extend_line (d : doc) (ps : list pos) : doc :=
  let tags := extended_line_tags (map (fun x => (fst x, tc_extend (snd x))) (cf_tags c))
                (map (fun x => (fst x, tc_merge (snd x))) (cf_tags c)) true true (map (main_tag d) ps) in
  fold_left (fun d x => if truthy (snd x) then set_tag sp LMain (fst x) (snd x) d else d) (combine ps tags) d.
Definition extend_lines (d : doc) : doc := fold_left extend_line (line_words 0 d) d.

(** S L733-748: [_do_annotate] *)
Fixpoint annotate_loop (fuel : nat) (targets : list tann) (d : doc) : res doc :=
  match targets, fuel with
  | [], _ => Ok d
  | _, O => Err OutOfFuel
  | _, S f =>
      do s <- process_targets targets d ;;
      if Nat.eqb (length (st_left s)) (length targets) then Ok (st_doc s)
      else annotate_loop f (st_left s) (st_doc s)
  end.
Definition simple_annotate (fuel : nat) (targets : list tann) (d : doc) : res doc :=
  do d' <- annotate_loop fuel targets d ;;
  Ok (if cf_extend c && negb sub_only then extend_lines d' else d').
End Simple.

(** annotation/sub_tag_annotator.py L20-49 (spaces included) *)
Definition clear_main (c : config) (t : tok) : tok :=
  let t' := set_tag_only LMain None t in
  if cf_preserve_sub c then t' else clear_preserved_tag_only LSub t'.
Definition restore_main (t : tok) : tok := set_tag_only LMain (tag_or_preserved LMain t) t.
Definition sub_tag_annotate sp wd lower escape_re re_search search_chunks search_all (c : config) (fuel : nat) (targets : list tann) (d : doc) : res doc :=
  do d' <- simple_annotate sp wd lower escape_re re_search search_chunks search_all c true fuel targets (map (map (clear_main c)) d) ;;
  Ok (map (map restore_main) d').
