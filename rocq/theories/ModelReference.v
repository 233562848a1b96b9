(** Model of annotation/reference_annotator.py. *)
From Verif Require Import Base ModelTags ModelTei ModelTeiDoc ModelJoined ModelExtend ModelTarget.

(** L73-96: [_iter_group_tokens_by_tag_entity]; [get] is [get_tag].  The groups are
    consumed one by one while sub tags are changed; the tags that are read here are main
    tags, so that the groups can be computed first. *)
Section Entities.
Context {A : Type} (get : A -> ostr).
Fixpoint entities_go (pv : ostr) (pending : list A) (l : list A) : list (ostr * list A) :=
  match l with
  | [] => match pending with [] => [] | _ => [(pv, pending)] end
  | t :: l' =>
      let (p, v) := split_tag_prefix (get t) in
      match pending with
      | [] => entities_go v [t] l'
      | _ =>
          if negb (ostreq pv v) || is_b p then (pv, pending) :: entities_go v [t] l'
          else entities_go pv (pending ++ [t]) l'
      end
  end.
Definition tag_entities (l : list A) : list (ostr * list A) := entities_go None [] l.
End Entities.

(** L99-111: [_map_tag], [_map_tags] *)
Definition map_tag (m : list (str * str)) (t : ostr) : ostr :=
  let (p, v) := split_tag_prefix t in
  add_tag_prefix (match v with
                  | Some ((_ :: _) as x) => Some (match dict_get x m with Some y => y | None => x end)
                  | _ => v
                  end) p.

(** tag, text and white space of a token *)
Definition rtok := (ostr * str * ostr)%type.
Definition rt_tag (x : rtok) : ostr := fst (fst x).
Definition rt_text (x : rtok) : str := snd (fst x).
Definition rt_ws (x : rtok) : ostr := snd x.
Definition rgroups (l : list rtok) : list (list rtok) := group_by (fun a b => same_value (rt_tag a) (rt_tag b)) l.

Section Reference.
(** [re.search(regex, text)]: the start of the match *)
Variable search : str -> str -> option Z.
Variable regexes : list (str * str).

(** L137-178: one group; the result are the tags of the group and whether the first tag
    of the next group becomes an inside tag *)
Definition prefix_group (enabled : list str) (g : list rtok) (next : option (list rtok)) : res (list ostr * bool) :=
  let tags := map rt_tag g in
  let nt := match next with Some (x :: _) => rt_tag x | _ => None end in
  let (np, nv) := split_tag_prefix nt in
  match nv with
  | Some v =>
      if truthy (hd None tags) || negb (mem v enabled) then Ok (tags, false)
      else
        do j <- join_with_index_ranges (map rt_text g) (u " ") [] (map rt_ws g) ;;
        match dict_get v regexes with
        | None => Err KeyError
        | Some rx =>
            match search rx (fst j) with
            | None => Ok (tags, false)
            | Some start =>
                match length (items_between g (snd j) (start, zlen (fst j))) with
                | O => Ok (tags, false)
                | S k => Ok (repeat None (length g - S k) ++ nt :: repeat (to_inside_tag nt) k, is_b np)
                end
            end
        end
  | None => Ok (tags, false)
  end.
Definition rinside_first (g : list rtok) : list rtok :=
  match g with [] => [] | t :: r => (to_inside_tag (rt_tag t), rt_text t, rt_ws t) :: r end.
Fixpoint prefix_go (enabled : list str) (chg : bool) (groups : list (list rtok)) : res (list ostr) :=
  match groups with
  | [] => Ok []
  | g0 :: rest =>
      let g := if chg then rinside_first g0 else g0 in
      do r <- prefix_group enabled g (hd_error rest) ;;
      do r' <- prefix_go enabled (snd r) rest ;;
      Ok (fst r ++ r')
  end.
(** L114-180: [get_prefix_extended_token_tags]; without enabled tags the keys of the
    regular expressions are enabled *)
Definition prefix_extended (enabled : option (list str)) (l : list rtok) : res (list ostr) :=
  prefix_go (match enabled with Some e => e | None => map fst regexes end) false (rgroups l).

(** L227-261: one group; [re.search(r'^\.', ...)] *)
Definition suffix_group (enabled : list str) (prev : option (list rtok)) (g : list rtok) : res (list ostr) :=
  let tags := map rt_tag g in
  let pt := match prev with Some (x :: _) => rt_tag x | _ => None end in
  match strip_tag_prefix pt with
  | Some v =>
      if truthy (hd None tags) || negb (mem v enabled) then Ok tags
      else
        do j <- join_with_index_ranges (map rt_text g) (u " ") [] (map rt_ws g) ;;
        if negb (starts_with [46%N] (fst j)) then Ok tags
        else
          match length (items_between g (snd j) (0, 1)%Z) with
          | O => Ok tags
          | S k => Ok (repeat (to_inside_tag pt) (S k) ++ repeat None (length g - S k))
          end
  | None => Ok tags
  end.
Fixpoint suffix_go (enabled : list str) (prev : option (list rtok)) (groups : list (list rtok)) : res (list ostr) :=
  match groups with
  | [] => Ok []
  | g :: rest =>
      do r <- suffix_group enabled prev g ;;
      do r' <- suffix_go enabled (Some g) rest ;;
      Ok (r ++ r')
  end.
(** L209-262: [get_suffix_extended_token_tags] *)
Definition suffix_extended (enabled : list str) (l : list rtok) : res (list ostr) := suffix_go enabled None (rgroups l).

(** L290-316: [get_etal_mapped_tags] *)
Fixpoint etal_go (etal : str) (enabled : list str) (accepted : ostr) (groups : list (list ostr)) : list ostr :=
  match groups with
  | [] => []
  | g :: rest =>
      let t := hd None g in
      let v := strip_tag_prefix t in
      if negb (ostreq v (Some etal)) || negb (truthy accepted)
      then g ++ etal_go etal enabled
                  (if match v with Some x => mem x enabled | None => false end then t
                   else if truthy t then None else accepted) rest
      else accepted :: repeat (to_inside_tag accepted) (length g - 1) ++ etal_go etal enabled accepted rest
  end.
Definition etal_mapped (etal : str) (enabled : list str) (tags : list ostr) : list ostr :=
  etal_go etal enabled None (group_by same_value tags).

(** L41-60: [ReferenceAnnotatorConfig] (with [regexes]) *)
Record ref_config := mkRefConfig {
  rc_map : list (str * str); rc_merge : list str; rc_prefix : option (list str); rc_suffix : list str;
  rc_etal : str; rc_etal_merge : list str }.

Variable sp : N -> bool.
(** L183-206, L265-287, L319-338, L341-365: a step for the tokens of an entity at the
    positions [ps]: read the sub tags, map and transform them, set those that are not empty *)
Definition read_tokens (d : doc) (ps : list (nat * nat)) : list tok :=
  flat_map (fun p => match nth_error d (fst p) with
                     | Some l => match nth_error l (snd p) with Some t => [t] | None => [] end
                     | None => []
                     end) ps.
Definition set_sub_tags (ps : list (nat * nat)) (ts : list ostr) (d : doc) : doc :=
  fold_left (fun d x => if truthy (snd x) then set_tag sp LSub (fst x) (snd x) d else d) (combine ps ts) d.
Definition to_rtok (c : ref_config) (t : tok) : rtok := (map_tag (rc_map c) (sub t), strip sp (tx t), ws t).
Definition ref_step (c : ref_config) (f : list rtok -> res (list ostr)) (ps : list (nat * nat)) (d : doc) : res doc :=
  do ts <- f (map (to_rtok c) (read_tokens d ps)) ;; Ok (set_sub_tags ps ts d).
(** the four transformations, in the order of L381-400 *)
Definition ref_steps (c : ref_config) : list (list rtok -> res (list ostr)) :=
  [ (fun l => Ok (etal_mapped (rc_etal c) (rc_etal_merge c) (map rt_tag l)));
    suffix_extended (rc_suffix c);
    prefix_extended (rc_prefix c);
    (fun l => Ok (extended_line_tags [] (map (fun k => (k, true)) (rc_merge c)) false false (map rt_tag l))) ].
(** positions of the words *)
Fixpoint word_indices (i j : nat) (l : line) : list (nat * nat) :=
  match l with [] => [] | t :: l' => (if is_space sp t then [] else [(i, j)]) ++ word_indices i (S j) l' end.
Fixpoint word_positions (i : nat) (d : doc) : list (nat * nat) :=
  match d with [] => [] | l :: d' => word_indices i 0 l ++ word_positions (S i) d' end.
Definition main_tag_at (d : doc) (p : nat * nat) : ostr :=
  match nth_error d (fst p) with
  | Some l => match nth_error l (snd p) with Some t => tag t | None => None end
  | None => None
  end.
(** L373-402: [annotate] *)
Definition annotate_references (c : ref_config) (d : doc) : res doc :=
  foldM (fun d g => foldM (fun d f => ref_step c f (snd g) d) d (ref_steps c)) d
    (tag_entities (main_tag_at d) (word_positions 0 d)).
End Reference.
