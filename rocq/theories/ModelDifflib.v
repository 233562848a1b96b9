(** Model of [difflib.SequenceMatcher(None, a, b, autojunk=False).get_matching_blocks()] of Python
    3.7 as used in utils/fuzzy.py L176-196 (words are texts).  There is no junk: the loops over
    junk at the ends of a match do nothing and are left out. *)
From Verif Require Import Base ModelFuzzyMatch ModelWordMatch.
Open Scope nat_scope.
Open Scope list_scope.

Definition triple := (nat * nat * nat)%type.
Section Difflib.
Variables a b : list str.

(** [b2j.get(x, nothing)]: the positions of a word in [b] *)
Definition b2j (x : str) : list nat :=
  filter (fun j => match nth_error b j with Some y => streq x y | None => false end) (seq 0 (length b)).
(** [j2len.get(j, 0)] *)
Definition get_len (j2len : list (nat * nat)) (j : nat) : nat :=
  match find (fun p => fst p =? j) j2len with Some p => snd p | None => 0 end.
(** [a[i] == b[j]] for positions that exist *)
Definition eq_at (i j : nat) : bool :=
  match nth_error a i, nth_error b j with Some x, Some y => streq x y | _, _ => false end.

(** [find_longest_match]: one row; a match is [(i, j, size)] *)
Fixpoint row (i blo bhi : nat) (j2len new : list (nat * nat)) (best : triple) (js : list nat) : list (nat * nat) * triple :=
  match js with
  | [] => (new, best)
  | j :: js' =>
      if j <? blo then row i blo bhi j2len new best js'
      else if bhi <=? j then (new, best)
      else
        let k := (match j with O => 0 | S j' => get_len j2len j' end) + 1 in
        let best' := if snd best <? k then (i + 1 - k, j + 1 - k, k) else best in
        row i blo bhi j2len ((j, k) :: new) best' js'
  end.
Fixpoint rows (is : list nat) (blo bhi : nat) (j2len : list (nat * nat)) (best : triple) : triple :=
  match is with
  | [] => best
  | i :: is' =>
      let (new, best') := row i blo bhi j2len [] best (match nth_error a i with Some x => b2j x | None => [] end) in
      rows is' blo bhi new best'
  end.
(** the loops at the start and at the end of the match *)
Fixpoint extend_left (fuel alo blo : nat) (m : triple) : triple :=
  match fuel with
  | O => m
  | S f =>
      let '(i, j, k) := m in
      if (alo <? i) && (blo <? j) && eq_at (i - 1) (j - 1) then extend_left f alo blo (i - 1, j - 1, k + 1) else m
  end.
Fixpoint extend_right (fuel ahi bhi : nat) (m : triple) : triple :=
  match fuel with
  | O => m
  | S f =>
      let '(i, j, k) := m in
      if (i + k <? ahi) && (j + k <? bhi) && eq_at (i + k) (j + k) then extend_right f ahi bhi (i, j, k + 1) else m
  end.
Definition find_longest_match (alo ahi blo bhi : nat) : triple :=
  extend_right (length a) ahi bhi (extend_left (length a) alo blo (rows (seq alo (ahi - alo)) blo bhi [] (alo, blo, 0))).

(** [get_matching_blocks]: the loop over the queue (the last element first) *)
Definition rect := (nat * nat * nat * nat)%type.
Fixpoint blocks_loop (fuel : nat) (queue : list rect) (found : list triple) : option (list triple) :=
  match queue with
  | [] => Some found
  | (alo, ahi, blo, bhi) :: queue' =>
      match fuel with
      | O => None
      | S f =>
          let '(i, j, k) := find_longest_match alo ahi blo bhi in
          if k =? 0 then blocks_loop f queue' found
          else
            let left := if (alo <? i) && (blo <? j) then [(alo, i, blo, j)] else [] in
            let right := if (i + k <? ahi) && (j + k <? bhi) then [(i + k, ahi, j + k, bhi)] else [] in
            blocks_loop f (right ++ left ++ queue') (found ++ [(i, j, k)])
      end
  end.
End Difflib.
(** [matching_blocks.sort()]: tuples *)
Definition triple_le (x y : triple) : bool :=
  let '(i, j, k) := x in let '(i', j', k') := y in
  (i <? i') || ((i =? i') && ((j <? j') || ((j =? j') && (k <=? k')))).
Fixpoint insert_triple (x : triple) (l : list triple) : list triple :=
  match l with [] => [x] | y :: l' => if triple_le x y then x :: l else y :: insert_triple x l' end.
Definition sort_triples (l : list triple) : list triple := fold_right insert_triple [] l.
(** adjacent blocks are merged; [m] is the current block *)
Fixpoint merge_adjacent (m : triple) (l : list triple) : list triple :=
  let '(i1, j1, k1) := m in
  match l with
  | [] => if k1 =? 0 then [] else [m]
  | (i2, j2, k2) :: l' =>
      if (i1 + k1 =? i2) && (j1 + k1 =? j2) then merge_adjacent (i1, j1, k1 + k2) l'
      else (if k1 =? 0 then [] else [m]) ++ merge_adjacent (i2, j2, k2) l'
  end.
Definition matching_blocks (a b : list str) : list triple :=
  match blocks_loop a b (2 * length a + 1) [(0, length a, 0, length b)] [] with
  | Some l => merge_adjacent (0, 0, 0) (sort_triples l) ++ [(length a, length b, 0)]
  | None => []
  end.
(** as positions *)
Definition difflib_blocks (a b : list str) : list block :=
  map (fun m : triple => let '(i, j, k) := m in (Z.of_nat i, Z.of_nat j, Z.of_nat k)) (matching_blocks a b).
