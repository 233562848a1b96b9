(** Model of utils/fuzzy.py L104-196: string views, splitting with offsets, the
    word sequence matcher. *)
From Verif Require Import Base ModelFuzzyMatch.
Open Scope Z_scope.

Definition enumerate {A} (l : list A) : list (Z * A) := combine (map Z.of_nat (seq 0 (length l))) l.
Fixpoint mapM {A B} (f : A -> res B) (l : list A) : res (list B) :=
  match l with
  | [] => Ok []
  | x :: l' => do y <- f x ;; do ys <- mapM f l' ;; Ok (y :: ys)
  end.

(** L104-129: [StringView] *)
Record view := mkV { v_orig : str; v_in : list bool; v_str : str; v_idx : list Z }.
Definition string_view (s : str) (inv : list bool) : view :=
  mkV s inv (map fst (filter snd (combine s inv))) (map fst (filter snd (enumerate inv))).

(** L147-157: [get_no_junk_string_view]; [None]: nothing is junk *)
Definition no_junk_view (s : str) (isjunk : option junk_fn) : res view :=
  match isjunk with
  | None => Ok (string_view s (repeat true (length s)))
  | Some f =>
      do inv <- mapM (fun ic => do j <- f s (fst ic) ;; Ok (negb j)) (enumerate s) ;;
      Ok (string_view s inv)
  end.

(** L51-52: [space_is_junk] *)
Definition c_tab : N := 9%N.
Definition c_nl : N := 10%N.
Definition is_space3 (c : N) : bool := (N.eqb c c_space || N.eqb c c_tab || N.eqb c c_nl)%bool.
Definition space_is_junk : junk_fn := fun s i => do c <- py_at s i ;; Ok (is_space3 c).

(** L33-48: [default_is_junk].  The while loop walks back over spaces: [rev_before]
    are the characters before the position, last first. *)
Fixpoint skip_spaces (l : str) : str :=
  match l with c :: l' => if N.eqb c c_space then skip_spaces l' else l | [] => [] end.
Definition default_is_junk (alpha : N -> bool) : junk_fn := fun s i =>
  do ch <- py_at s i ;;
  if (N.eqb ch c_star || N.eqb ch c_space)%bool then Ok true
  else
    match skip_spaces (rev (py_slice s 0 (Z.max 0 i))) with
    | p :: _ => Ok (N.eqb ch c_comma && N.eqb p c_dot || N.eqb ch c_dot && alpha p)%bool
    | [] => Ok false
    end.

(** L19: [DEFAULT_WORD_SEPARATORS] *)
Definition default_separators : str := u " .,-:;()[]" ++ [c_nl; c_tab].
Definition in_chars (c : N) (sep : str) : bool := existsb (N.eqb c) sep.

(** L132-144: [split_with_offset] *)
Definition split_step (s sep : str) (incl : bool) (st : Z * list (Z * str)) (ic : Z * N) : Z * list (Z * str) :=
  let (prev, tokens) := st in
  let (i, c) := ic in
  if in_chars c sep then
    (i + 1, (tokens ++ (if prev <? i then [(prev, py_slice s prev i)] else []))
            ++ (if incl then [(i, [c])] else []))
  else (prev, tokens).
Definition split_with_offset (s sep : str) (incl : bool) : list (Z * str) :=
  let (prev, tokens) := fold_left (split_step s sep incl) (enumerate s) (0, []) in
  if prev <? slen s then tokens ++ [(prev, py_from s prev)] else tokens.

(** L160-196: [WordSequenceMatcher.get_matching_blocks]; [words] is the result of
    difflib's [SequenceMatcher(None, a_words, b_words).get_matching_blocks()],
    [sep or DEFAULT_WORD_SEPARATORS] is resolved by the caller *)
Definition word_blocks (words : list str -> list str -> list block) (sep a b : str) : res (list block) :=
  let aw := split_with_offset a sep true in
  let bw := split_with_offset b sep true in
  mapM (fun x =>
      do ai <- py_at (map fst aw) (b_a x) ;;
      do bi <- py_at (map fst bw) (b_b x) ;;
      do n <- foldM (fun n k => do w <- py_at (map snd aw) (b_a x + k) ;; Ok (n + slen w)) 0 (py_range 0 (b_n x)) ;;
      Ok (ai, bi, n))
    (filter (fun x => negb (b_n x =? 0)) (words (map snd aw) (map snd bw))).
