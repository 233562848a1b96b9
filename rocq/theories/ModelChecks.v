(** Model of annotation/checks.py. *)
From Verif Require Import Base ModelTags ModelTei ModelTeiDoc ModelJoined ModelClusters ModelTarget ModelMapping.

(** L28-35: [_iter_all_tokens]; [get_tokens_of_line] leaves out spaces *)
Definition all_tokens (sp : N -> bool) (d : doc) : list tok := filter (fun t => negb (is_space sp t)) (concat d).
(** L38-45: [get_token_text] *)
Definition or_empty (w : ostr) : str := match w with Some s => s | None => [] end.
Definition token_text (ts : list tok) : str :=
  match ts with
  | [] => []
  | t0 :: _ => concat (flat_map (fun t => [tx t; or_empty (ws t)]) (removelast ts) ++ [tx (last ts t0)])
  end.
(** L56-76: [iter_structured_document_entities]; first the groups of tokens.  A pending
    group has its (truthy) value. *)
Fixpoint entity_groups (pending : option (str * list tok)) (toks : list tok) : list (str * list tok) :=
  match toks with
  | [] => match pending with Some g => [g] | None => [] end
  | t :: l =>
      let (prefix, value) := split_tag_prefix (get_tag LMain t) in
      let flush := match pending with
        | Some (v, _) => negb (ostreq (Some v) value) || is_b prefix
        | None => false
        end in
      let yielded := match pending with Some g => if flush then [g] else [] | None => [] end in
      let pending := if flush then None else pending in
      yielded ++
      match value with
      | Some (c :: v) =>
          entity_groups (Some (c :: v, match pending with Some (_, ts) => ts | None => [] end ++ [t])) l
      | _ => entity_groups pending l
      end
  end.
Definition entities (sp : N -> bool) (d : doc) : list (str * str) :=
  map (fun g => (fst g, token_text (snd g))) (entity_groups None (all_tokens sp d)).

(** [{k: list(g) for k, g in groupby(sorted(l, key), key)}], strings ordered by code
    points *)
Fixpoint str_leb (a b : str) : bool :=
  match a, b with
  | [], _ => true
  | _ :: _, [] => false
  | x :: a', y :: b' => N.ltb x y || (N.eqb x y && str_leb a' b')
  end.
Fixpoint group_consecutive {A} (l : list (str * A)) : list (str * list A) :=
  match l with
  | [] => []
  | (k, a) :: l' =>
      match group_consecutive l' with
      | (k', g) :: r => if streq k k' then (k, a :: g) :: r else (k, [a]) :: (k', g) :: r
      | [] => [(k, [a])]
      end
  end.
Definition grouped {A} (l : list (str * A)) : list (str * list A) :=
  dict_update [] (group_consecutive (sort (fun a b => str_leb (fst a) (fst b)) l)).

(** L79-90: [get_required_target_annotation_by_name] *)
Definition required_by_name (ts : list target) (fields : list str) : list (str * list tvalue) :=
  filter (fun g => mem (fst g) fields) (grouped (map (fun t => (ta_name t, ta_value t)) ts)).
(** L93-119: [get_required_target_value_by_name]; [fields] is the set in some order *)
Definition required_value (ts : list target) (fields : list str) (d : list (str * str)) (f : str) : res (list (str * str)) :=
  match dict_get f (required_by_name ts fields) with
  | None | Some [] => Ok d
  | Some [VOne v] => Ok (dict_set f v d)
  | Some _ => Err RuntimeError
  end.
Definition required_values (ts : list target) (fields : list str) : res (list (str * str)) :=
  foldM (required_value ts fields) [] fields.

Section Checks.
Variable sp : N -> bool.
(** [get_levenshtein_ratio(a, b) >= threshold] *)
Variable similar : str -> str -> bool.

(** L137-175: [is_structured_document_passing_checks]; missing sets are [] *)
Definition passing (d : doc) (matching required : list str) (ts : list target) : res bool :=
  let fields := matching ++ filter (fun f => negb (mem f matching)) required in
  match fields with
  | [] => Ok true
  | _ =>
      match ts with
      | [] => Err RuntimeError
      | _ =>
          do values <- required_values ts fields ;;
          if existsb (fun f => negb (mem f (map fst values))) required then Ok false
          else
            let by_name := grouped (entities sp d) in
            Ok (forallb (fun fv =>
              match dict_get (fst fv) by_name with
              | None | Some [] => false
              | Some actual => similar (snd fv) (join_str (u " ") actual)
              end) values)
      end
  end.
End Checks.
