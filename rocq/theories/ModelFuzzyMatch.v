(** Model of core/annotation/fuzzy_match.py: junk removal, inverted ranges and
    match results.  Paths relative to sciencebeam_trainer_grobid_tools.
    Python ints are [Z]; indices into a text follow Python's rules ([py_at]).
    Ratios are exact rationals, Python's are the nearest floats. *)
From Verif Require Import Base.
From Coq Require Export QArith.
Open Scope Z_scope.

Definition slen {A} (s : list A) : Z := Z.of_nat (length s).
(** [s[i]] *)
Definition py_at {A} (s : list A) (i : Z) : res A :=
  let j := if i <? 0 then slen s + i else i in
  if j <? 0 then Err IndexError
  else match nth_error s (Z.to_nat j) with Some c => Ok c | None => Err IndexError end.
(** [s[i:j]] *)
Definition py_slice {A} (s : list A) (i j : Z) : list A :=
  let fix_ k := if k <? 0 then Z.max 0 (slen s + k) else k in
  firstn (Z.to_nat (fix_ j - fix_ i)) (skipn (Z.to_nat (fix_ i)) s).
Definition py_from {A} (s : list A) (i : Z) : list A := py_slice s i (slen s).
(** [range(i, j)] *)
Definition py_range (i j : Z) : list Z := map (fun k => i + Z.of_nat k) (seq 0 (Z.to_nat (j - i))).

Definition junk_fn := str -> Z -> res bool.

Definition c_dot : N := 46%N.
Definition c_space : N := 32%N.
Definition c_comma : N := 44%N.
Definition c_star : N := 42%N.

(** L34-40: [DEFAULT_ISJUNK]; [alpha] is [str.isalpha] *)
Definition default_isjunk (alpha : N -> bool) : junk_fn := fun s i =>
  if 0 <? i then
    do p <- py_at s (i - 1) ;; do c <- py_at s i ;;
    Ok ((N.eqb p c_dot && (N.eqb c c_space || N.eqb c c_comma)) || (alpha p && N.eqb c c_dot)
        || N.eqb p c || N.eqb c c_star)%bool
  else do c <- py_at s i ;; Ok (N.eqb c c_star).
(** L43-44: [DOT_IS_JUNK] *)
Definition dot_is_junk : junk_fn := fun s i => do c <- py_at s i ;; Ok (N.eqb c c_dot).

(** L47-63: [remove_junk].  State: (result, start); [result is None] iff [None]. *)
Definition remove_junk (isjunk : junk_fn) (s : str) : res str :=
  do st <- foldM (fun (st : option (list str) * Z) i =>
      let (result, start) := st in
      do j <- isjunk s i ;;
      if j then
        let r := match result with Some r => r | None => [] end in
        Ok (Some (if start <? i then r ++ [py_slice s start i] else r), i + 1)
      else Ok st) (None, 0) (py_range 0 (slen s)) ;;
  match fst st with
  | None => Ok s
  | Some r => Ok (concat (if snd st <? slen s then r ++ [py_from s (snd st)] else r))
  end.

(** L66-75: [invert_index_ranges], the yielded ranges *)
Fixpoint invert_index_ranges (l : list (Z * Z)) (i end_ : Z) : list (Z * Z) :=
  match l with
  | [] => if i <? end_ then [(i, end_)] else []
  | (rs, re) :: l' =>
      if end_ <=? i then []
      else (if i <? rs then [(i, Z.min end_ rs)] else []) ++ invert_index_ranges l' re end_
  end.

(** L78-87: match result; [isjunk or DEFAULT_ISJUNK] is resolved by the caller *)
Definition block := (Z * Z * Z)%type.
Definition b_a (x : block) : Z := fst (fst x).
Definition b_b (x : block) : Z := snd (fst x).
Definition b_n (x : block) : Z := snd x.
Record fmr := mkF { f_a : str; f_b : str; f_blocks : list block; f_junk : junk_fn }.
Definition non_empty (m : fmr) : list block := filter (fun x => negb (b_n x =? 0)) (f_blocks m).
(** L89-90 *)
Definition has_match (m : fmr) : bool := match non_empty m with [] => false | _ => true end.
Definition zsum (l : list Z) : Z := fold_right Z.add 0 l.
(** L92-95 *)
Definition match_count (m : fmr) : Z := zsum (map b_n (f_blocks m)).
(** L97-100: [ratio_to] *)
Definition ratio_to (m : fmr) (size : Z) : Q :=
  if size =? 0 then 0%Q else (inject_Z (match_count m) / inject_Z size)%Q.
(** L120-123: [count_junk_between] *)
Definition count_junk_between (isjunk : junk_fn) (s : str) (r : Z * Z) : res Z :=
  foldM (fun n i => do j <- isjunk s i ;; Ok (n + (if j : bool then 1 else 0))) 0 (py_range (fst r) (snd r)).
(** L125-135: [count_non_matching_junk] *)
Definition count_non_matching_junk (isjunk : junk_fn) (s : str) (blocks : list (Z * Z)) (r : Z * Z) : res Z :=
  foldM (fun n x => do k <- count_junk_between isjunk s x ;; Ok (n + k)) 0
    (invert_index_ranges blocks (fst r) (snd r)).
(** L174-178 *)
Definition a_matching_blocks (m : fmr) : list (Z * Z) := map (fun x => (b_a x, b_a x + b_n x)) (non_empty m).
Definition b_matching_blocks (m : fmr) : list (Z * Z) := map (fun x => (b_b x, b_b x + b_n x)) (non_empty m).
(** L180-210: index ranges *)
Definition last_block (l : list block) : block := last l (0, 0, 0).
Definition a_index_range (m : fmr) : Z * Z :=
  match non_empty m with
  | [] => (0, 0)
  | x :: l => (b_a x, b_a (last_block (x :: l)) + b_n (last_block (x :: l)))
  end.
Definition b_index_range (m : fmr) : Z * Z :=
  match non_empty m with
  | [] => (0, 0)
  | x :: l => (b_b x, b_b (last_block (x :: l)) + b_n (last_block (x :: l)))
  end.
(** L29-30 *)
Definition len_index_range (r : Z * Z) : Z := snd r - fst r.
(** L143-153 *)
Definition a_non_matching_junk (m : fmr) (r : Z * Z) : res Z :=
  count_non_matching_junk (f_junk m) (f_a m) (a_matching_blocks m) r.
Definition b_non_matching_junk (m : fmr) (r : Z * Z) : res Z :=
  count_non_matching_junk (f_junk m) (f_b m) (b_matching_blocks m) r.
(** L102-118: [ratio] *)
Definition ratio (m : fmr) : res Q :=
  let al := len_index_range (a_index_range m) in
  let bl := len_index_range (b_index_range m) in
  let ml := Z.max al bl in
  do junk <- (if ml =? al then a_non_matching_junk m (a_index_range m)
              else b_non_matching_junk m (b_index_range m)) ;;
  Ok (ratio_to m (ml - junk)).
(** L155-159: [a_ratio], [b_ratio] *)
Definition a_ratio (m : fmr) : res Q :=
  do junk <- a_non_matching_junk m (0, slen (f_a m)) ;; Ok (ratio_to m (slen (f_a m) - junk)).
Definition b_ratio (m : fmr) : res Q :=
  do junk <- b_non_matching_junk m (0, slen (f_b m)) ;; Ok (ratio_to m (slen (f_b m) - junk)).
(** L161-172: [b_gap_ratio] *)
Definition b_gap_ratio (m : fmr) : res Q :=
  do aj <- a_non_matching_junk m (a_index_range m) ;;
  do bj <- b_non_matching_junk m (0, slen (f_b m)) ;;
  Ok (ratio_to m (slen (f_b m) + (len_index_range (a_index_range m) - match_count m) - aj - bj)).
(** utils/fuzzy.py L55-72: the version of the sub class *)
Definition b_gap_ratio_fixed (m : fmr) : res Q :=
  do aj <- a_non_matching_junk m (a_index_range m) ;;
  do bj <- b_non_matching_junk m (0, slen (f_b m)) ;;
  Ok (ratio_to m (slen (f_b m) + Z.max 0 (len_index_range (a_index_range m) - match_count m) - aj - bj)).

(** L212-233: [a_split_at] with the default parts.  The parts get the default
    junk function [dj]. *)
Definition a_split_at (dj : junk_fn) (m : fmr) (index : Z) : fmr * fmr :=
  let pre := py_slice (f_a m) 0 index in
  let post := py_from (f_a m) index in
  match non_empty m with
  | [] => (mkF pre (f_b m) [] dj, mkF post (f_b m) [] dj)
  | _ =>
      if snd (a_index_range m) <=? index
      then (mkF pre (f_b m) (non_empty m) dj, mkF post (f_b m) [] dj)
      else
        (mkF pre (f_b m)
           (map (fun x => (b_a x, b_b x, Z.min (b_n x) (index - b_a x)))
              (filter (fun x => b_a x <? index) (non_empty m))) dj,
         mkF post (f_b m)
           (map (fun x => (Z.max 0 (b_a x - index), b_b x,
                           if index <=? b_a x then b_n x else b_n x + b_a x - index))
              (filter (fun x => index <? b_a x + b_n x) (non_empty m))) dj)
  end.
(** L235-257: [b_split_at] *)
Definition b_split_at (dj : junk_fn) (m : fmr) (index : Z) : fmr * fmr :=
  let pre := py_slice (f_b m) 0 index in
  let post := py_from (f_b m) index in
  match non_empty m with
  | [] => (mkF (f_a m) pre [] dj, mkF (f_a m) post [] dj)
  | _ =>
      if snd (b_index_range m) <=? index
      then (mkF (f_a m) pre (non_empty m) dj, mkF (f_a m) post [] dj)
      else
        (mkF (f_a m) pre
           (map (fun x => (b_a x, b_b x, Z.min (b_n x) (index - b_b x)))
              (filter (fun x => b_b x <? index) (non_empty m))) dj,
         mkF (f_a m) post
           (map (fun x => (b_a x, Z.max 0 (b_b x - index),
                           if index <=? b_b x then b_n x else b_n x + b_b x - index))
              (filter (fun x => index <? b_b x + b_n x) (non_empty m))) dj)
  end.
