(** Model of the extension of tags over a line:
    annotation/simple_matching_annotator.py L242-357 *)
From Verif Require Import Base ModelTags.

(** L251-257: [to_inside_tag] *)
Definition to_inside_tag (t : ostr) : ostr :=
  let (p, v) := split_tag_prefix t in
  if ostreq p (Some B_PREFIX) then add_tag_prefix v (Some I_PREFIX) else t.
(** L242-248: [to_begin_tag] *)
Definition to_begin_tag (t : ostr) : ostr :=
  let (p, v) := split_tag_prefix t in
  if ostreq p (Some I_PREFIX) then add_tag_prefix v (Some B_PREFIX) else t.
(** L260-269: [to_begin_inside_tags] *)
Definition to_begin_inside_tags (t : ostr) (n : nat) : list ostr :=
  match n with
  | O => []
  | S n' =>
      let (p, v) := split_tag_prefix t in
      if negb (truthy p) then repeat t n
      else add_tag_prefix v (Some B_PREFIX) :: repeat (add_tag_prefix v (Some I_PREFIX)) n'
  end.
(** L272-283: [get_merged_begin_inside_tags_of_same_tag_value] *)
Definition merged_tags (tags : list ostr) : list ostr :=
  match tags with
  | [] => []
  | t :: r =>
      let (p, v) := split_tag_prefix t in
      if negb (truthy p) then tags
      else t :: repeat (add_tag_prefix v (Some I_PREFIX)) (length r)
  end.

(** [itertools.groupby(l, key)]: consecutive elements with equal keys *)
Fixpoint group_by {A} (same : A -> A -> bool) (l : list A) : list (list A) :=
  match l with
  | [] => []
  | x :: l' =>
      match group_by same l' with
      | (y :: g) :: gs => if same x y then (x :: y :: g) :: gs else [x] :: (y :: g) :: gs
      | gs => [x] :: gs
      end
  end.
Definition same_value (a b : ostr) : bool := ostreq (strip_tag_prefix a) (strip_tag_prefix b).

(** [dict.get(key, default)] / utils/misc.py L9-16 [get_dict_safe]: the keys are
    texts, so the result for [None] is the default *)
Definition enabled (m : list (str * bool)) (d : bool) (v : ostr) : bool :=
  match v with
  | Some k => match dict_get k m with Some b => b | None => d end
  | None => d
  end.

Section Extend.
Variables extend_map merge_map : list (str * bool).
Variables default_extend default_merge : bool.

(** L317-355, one group.  [prev] / [next] are the neighbouring groups as they are
    at that time; the result is the extension of [group] and whether the first tag
    of the next group is replaced ([next_group[0] = to_inside_tag(...)]).
    Groups are not empty, so [if prev_group] tests for existence. *)
Definition extend_group (prev : option (list ostr)) (group : list ostr) (next : option (list ostr))
    : list ostr * bool :=
  let prev_last := match prev with Some g => last g None | None => None end in
  let next_first := match next with Some g => hd None g | None => None end in
  let pv := snd (split_tag_prefix prev_last) in
  let (np, nv) := split_tag_prefix next_first in
  let b := ostreq np (Some B_PREFIX) in
  if truthy (hd None group) then (group, false)
  else
    match prev, next with
    | Some _, Some _ =>
        if ostreq pv nv && enabled merge_map default_merge pv
        then (repeat (to_inside_tag prev_last) (length group), b)
        else (group, false)
    | Some p, None =>
        if negb (enabled extend_map default_extend pv) then (group, false)
        else if Nat.ltb (length group) (length p)
        then (repeat (to_inside_tag prev_last) (length group), false)
        else (group, false)
    | None, Some n =>
        if negb (enabled extend_map default_extend nv) then (group, false)
        else if Nat.ltb (length group) (length n)
        then (to_begin_inside_tags next_first (length group), b)
        else (group, false)
    | None, None => (group, false)
    end.
Definition inside_first (g : list ostr) : list ostr :=
  match g with [] => [] | t :: r => to_inside_tag t :: r end.

(** L317-355: the loop.  [chg] says that the previous step has replaced the first
    tag of the first remaining group.  [prev] is the previous group itself, not its
    extension. *)
Fixpoint extend_go (prev : option (list ostr)) (chg : bool) (groups : list (list ostr)) : list (list ostr) :=
  match groups with
  | [] => []
  | g0 :: rest =>
      let g := if chg then inside_first g0 else g0 in
      let (r, chg') := extend_group prev g (hd_error rest) in
      r :: extend_go (Some g) chg' rest
  end.

(** L303-314: grouping and merging of the tags of each group *)
Definition merge_same (g : list ostr) : list ostr :=
  if enabled merge_map default_merge (strip_tag_prefix (hd None g)) then merged_tags g else g.

(** L286-357: [get_extended_line_token_tags] *)
Definition extended_line_tags (tags : list ostr) : list ostr :=
  concat (extend_go None false (map merge_same (group_by same_value tags))).
End Extend.
