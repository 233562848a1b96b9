(** Model of the selection of match ranges:
    annotation/simple_matching_annotator.py L146-231 *)
From Verif Require Import Base ModelJoined.
Open Scope Z_scope.

(** Python [sorted]: a stable sort (insertion sort) for a total preorder *)
Section Sort.
Context {A : Type}.
Variable leb : A -> A -> bool.
Fixpoint insert (x : A) (l : list A) : list A :=
  match l with
  | [] => [x]
  | y :: l' => if leb x y then x :: l else y :: insert x l'
  end.
Definition sort (l : list A) : list A := fold_right insert [] l.
End Sort.

(** comparison of tuples *)
Definition range_leb (a b : irange) : bool :=
  (fst a <? fst b) || ((fst a =? fst b) && (snd a <=? snd b)).
(** L153-154: [sorted_index_ranges] *)
Definition sorted_ranges (l : list irange) : list irange := sort range_leb l.

(** L146-150: [merge_index_ranges] ([min] / [max] of nothing: ValueError) *)
Definition merge_index_ranges (l : list irange) : res irange :=
  match l with
  | [] => Err ValueError
  | r :: l' => Ok (fold_left (fun m x => Z.min m (fst x)) l' (fst r),
                   fold_left (fun m x => Z.max m (snd x)) l' (snd r))
  end.

(** L161-193: [IndexRangeCluster]; a cluster is its sorted list of ranges.
    Clusters are never empty (the default values are not used). *)
Definition cluster := list irange.
Definition c_start (c : cluster) : Z := fst (hd (0, 0) c).
Definition c_end (c : cluster) : Z := snd (last c (0, 0)).
Definition c_length (c : cluster) : Z := c_end c - c_start c.
(** L180-183: [gap_to] *)
Definition gap_to (self other : cluster) : Z :=
  if c_start other >=? c_end self then c_start other - c_end self else c_start self - c_end other.
(** L185-190: [should_merge] *)
Definition should_merge (self other : cluster) : bool :=
  gap_to self other <=? Z.max (c_length self) (c_length other) + 10.
(** L192-193: [merge_with] *)
Definition merge_with (self other : cluster) : cluster := sorted_ranges (self ++ other).

(** L196-209: one round of [merge_related_clusters]; [cur] is [merged_clusters[-1]] *)
Fixpoint merge_round (cur : cluster) (l : list cluster) : list cluster * bool :=
  match l with
  | [] => ([cur], false)
  | c :: l' =>
      if should_merge cur c then (fst (merge_round (merge_with cur c) l'), true)
      else let (r, b) := merge_round c l' in (cur :: r, b)
  end.
Fixpoint merge_related (fuel : nat) (l : list cluster) : res (list cluster) :=
  match l with
  | [] => Err IndexError
  | c :: l' =>
      let (r, merged) := merge_round c l' in
      if merged then match fuel with O => Err OutOfFuel | S f => merge_related f r end
      else Ok r
  end.

(** L212-231: [select_index_ranges] *)
Definition select_index_ranges (l : list irange) : res (list irange * list irange) :=
  if Nat.leb (length l) 1 then Ok (l, [])
  else
    let cs := map (fun r => sorted_ranges [r]) (sorted_ranges l) in
    do merged <- merge_related (length cs) cs ;;
    match sort (fun a b => c_length b <=? c_length a) merged with
    | [] => Err IndexError
    | c :: rest => Ok (c, sorted_ranges (concat rest))
    end.
