(** Model of the operations on a loaded document:
    sciencebeam_trainer_grobid_tools/structured_document/grobid_training_tei.py L534-725
    and the preparation steps in
    sciencebeam_trainer_grobid_tools/annotation/annotator.py *)
From Verif Require Import Base ModelTags ModelTokenize ModelXml ModelTei.

(** A document is the list of its lines ([self._lines]); there is one page
    (L613-619).  [self._root] and the paths are constants. *)
Definition doc := list line.

(** Tag levels: [None] (main tag) and [SUB_LEVEL] (L40-46).  Attribute names for
    scopes are not modelled: no modelled caller passes a scope. *)
Inductive level := LMain | LSub.

(** L633-643: [get_tag], [get_preserved_tag], [get_tag_or_preserved_tag],
    [get_tag_or_preserved_tag_value] *)
Definition get_tag (lv : level) (t : tok) : ostr :=
  match lv with LMain => tag t | LSub => sub t end.
Definition get_preserved_tag (lv : level) (t : tok) : ostr :=
  match lv with LMain => ptag t | LSub => psub t end.
Definition tag_or_preserved (lv : level) (t : tok) : ostr :=
  oor (get_tag lv t) (get_preserved_tag lv t).
Definition tag_or_preserved_value (lv : level) (t : tok) : ostr :=
  strip_tag_prefix (tag_or_preserved lv t).

(** L645-665, L691-696: [set_tag_only], [set_sub_tag_only],
    [clear_preserved_tag_only], [_set_preserved_tag]; [set_or_remove_attrib] is
    from sciencebeam_utils (the value None removes the attribute) *)
Definition set_tag_only (lv : level) (v : ostr) (t : tok) : tok :=
  match lv with
  | LMain => mkTok (tx t) v (sub t) (ptag t) (psub t) (ws t)
  | LSub => mkTok (tx t) (tag t) v (ptag t) (psub t) (ws t)
  end.
Definition set_preserved_tag (lv : level) (v : ostr) (t : tok) : tok :=
  match lv with
  | LMain => mkTok (tx t) (tag t) (sub t) v (psub t) (ws t)
  | LSub => mkTok (tx t) (tag t) (sub t) (ptag t) v (ws t)
  end.
Definition clear_preserved_tag_only (lv : level) (t : tok) : tok := set_preserved_tag lv None t.

(** [f] applied to the [n]-th element *)
Fixpoint update_nth {A} (n : nat) (f : A -> A) (l : list A) : list A :=
  match l, n with
  | [], _ => []
  | a :: l', O => f a :: l'
  | a :: l', S n' => a :: update_nth n' f l'
  end.

Section Doc.
Variable sp : N -> bool.

(** L680-689: [_clear_same_preserved_tag_on_same_line] for the [j]-th token of
    the line *)
Definition clear_same_preserved (lv : level) (j : nat) (l : line) : line :=
  match nth_error l j with
  | None => l
  | Some t =>
      let p := strip_tag_prefix (get_preserved_tag lv t) in
      if truthy p then
        map (fun x => if ostreq (strip_tag_prefix (get_preserved_tag lv x)) p
                      then set_preserved_tag lv None x else x) l
      else l
  end.

(** L667-681: [set_tag] for the [j]-th token of a line (only this line changes) *)
Definition set_tag_line (lv : level) (j : nat) (v : ostr) (l : line) : line :=
  match nth_error l j with
  | None => l
  | Some t =>
      let l1 := update_nth j (set_tag_only lv v) l in
      if is_space sp t then l1
      else if ostreq (strip_tag_prefix v) (strip_tag_prefix (tag_or_preserved lv t)) then l1
      else
        let l2 := clear_same_preserved lv j l1 in
        match lv with LMain => clear_same_preserved LSub j l2 | LSub => l2 end
  end.

(** ... for token [j] of line [i] *)
Definition set_tag (lv : level) (ij : nat * nat) (v : ostr) (d : doc) : doc :=
  update_nth (fst ij) (set_tag_line lv (snd ij) v) d.

(** L707-723: [remove_all_untagged].  [cur] is [current_result_line_tokens],
    which is never reset; every [TeiLine] created gets this same list object, and
    later appends are visible in all of them: the final content of each of the
    result lines is the final content of [cur].  [n] counts the lines added.
    (The list [non_space_tokens] of a line is computed when it is created and is
    not modelled for the result; saving uses [tokens], L452-454.) *)
Definition remove_step (s : list tok * bool) (t : tok) : list tok * bool :=
  let (cur, enabled) := s in
  if is_space sp t then (if enabled then cur ++ [t] else cur, enabled)
  else if truthy (tag t) then (cur ++ [t], true) else (cur, false).
Definition remove_line (s : list tok * bool * nat) (l : line) : list tok * bool * nat :=
  let '(cur, enabled, n) := s in
  let (cur', enabled') := fold_left remove_step l (cur, enabled) in
  (cur', enabled', match cur' with [] => n | _ => S n end).
Definition remove_all_untagged (d : doc) : doc :=
  let '(cur, _, n) := fold_left remove_line d ([], true, 0) in repeat cur n.

(** annotator.py L35-45: [_map_token_tags] (all tokens, spaces included) *)
Definition map_token_tag (tag_fn : ostr -> ostr) (lv : level) (t : tok) : tok :=
  let old := tag_or_preserved lv t in
  let new := tag_fn old in
  if ostreq new old then t else clear_preserved_tag_only lv (set_tag_only lv new t).
Definition map_token_tags (tag_fn : ostr -> ostr) (lv : level) (d : doc) : doc :=
  map (map (map_token_tag tag_fn lv)) d.

(** annotator.py L48-58: [_preserve_tag_fn]; L61-62: [_no_preserve_tag_fn].
    Fields are sets of texts; [if fields and ...] skips the test for the empty set
    ([None] and the empty set are not distinguished). *)
Definition nonempty {A} (l : list A) : bool := match l with [] => false | _ => true end.
Definition preserve_tag_fn (include exclude : list str) (old : ostr) : ostr :=
  let simple := strip_tag_prefix old in
  if nonempty exclude && omem simple exclude then None
  else if nonempty include && negb (omem simple include) then None
  else old.

(** annotator.py L73-126: [annotate_structured_document_inplace] up to the call
    of the annotator.  L86: set difference. *)
Definition prepare_tags (preserve_tags : bool) (fields preserve_fields : list str)
    (preserve_sub_tags : bool) (no_preserve_sub_fields : list str) (d : doc) : doc :=
  let d1 :=
    if preserve_tags || nonempty preserve_fields then
      let exclude := filter (fun f => negb (mem f preserve_fields)) fields in
      map_token_tags (preserve_tag_fn preserve_fields exclude) LMain d
    else map_token_tags (fun _ => None) LMain d in
  if negb preserve_sub_tags then map_token_tags (fun _ => None) LSub d1
  else if nonempty no_preserve_sub_fields
       then map_token_tags (preserve_tag_fn [] no_preserve_sub_fields) LSub d1
       else d1.

(** annotator.py L131-149: [_apply_preserved_fields]: for every token in order,
    spaces included *)
Definition apply_preserved_at (fields : list str) (l : line) (j : nat) : line :=
  match nth_error l j with
  | None => l
  | Some t =>
      let full := tag_or_preserved LMain t in
      if omem (strip_tag_prefix full) fields then set_tag_line LMain j full l else l
  end.
Definition apply_preserved_line (fields : list str) (l : line) : line :=
  fold_left (apply_preserved_at fields) (seq 0 (length l)) l.
Definition apply_preserved_fields (fields : list str) (d : doc) : doc :=
  map (apply_preserved_line fields) d.

(** annotator.py L152-202: [annotate_structured_document] up to the call of the
    annotator: [always_preserve_fields] is passed on as [preserve_fields] *)
Definition prepare_document (always_preserve_fields : list str) (preserve_tags : bool)
    (fields : list str) (preserve_sub_tags : bool) (no_preserve_sub_fields : list str)
    (d : doc) : doc :=
  let d1 := if nonempty always_preserve_fields
            then apply_preserved_fields always_preserve_fields d else d in
  prepare_tags preserve_tags fields always_preserve_fields preserve_sub_tags
    no_preserve_sub_fields d1.

End Doc.

(* ------------------------------------------------------------------ *)
(** ** The whole tree *)

Definition has_name (n : str) (e : xml) : bool :=
  match e with Elem m _ _ _ _ => streq m n | Misc _ => false end.
Definition children (e : xml) : list xml :=
  match e with Elem _ _ _ cs _ => cs | Misc _ => [] end.

(** [root.findall(path)] for the container paths in use: child steps only, with
    the names already expanded by the namespaces (L568, L541) *)
Fixpoint find_all (path : list str) (e : xml) : list xml :=
  match path with
  | [] => [e]
  | n :: path' => flat_map (find_all path') (filter (has_name n) (children e))
  end.

(** the first child for which [step] gives a result is replaced *)
Fixpoint replace_in (step : xml -> option (res xml)) (cs : list xml) : option (res (list xml)) :=
  match cs with
  | [] => None
  | c :: cs' =>
      match step c with
      | Some r => Some (do c' <- r ;; Ok (c' :: cs'))
      | None => option_map (fun r => do cs'' <- r ;; Ok (c :: cs'')) (replace_in step cs')
      end
  end.
(** the tree with the first match of the path ([root.find(path)]) replaced; [None]
    if there is no match *)
Fixpoint replace_first (f : xml -> res xml) (path : list str) (e : xml) : option (res xml) :=
  match path with
  | [] => Some (f e)
  | n :: path' =>
      match e with
      | Misc _ => None
      | Elem m a text cs tl =>
          option_map (fun r => do cs' <- r ;; Ok (Elem m a text cs' tl))
            (replace_in (fun c => if has_name n c then replace_first f path' c else None) cs)
      end
  end.

Definition elem_name (e : xml) : str :=
  match e with Elem n _ _ _ _ => n | Misc _ => [] end.

(** L534-550: [_updated_tei_with_lines] (on a copy); L600-608: [root].
    [container_node.clear()] (L547) removes text, attributes, children and
    tail, so the written container ([lines_to_tei]) has no tail. *)
Definition updated_tei (sp : N -> bool) node_ok mapping (path : list str) (root : xml)
    (d : doc) : res xml :=
  match replace_first (fun c => lines_to_tei sp node_ok mapping (elem_name c) d) path root with
  | Some r => r
  | None => Err RuntimeError
  end.

(** L553-575: loading from the root *)
Definition load_document (sp wd up lo : N -> bool) mapping preserve (path : list str)
    (root : xml) : res doc :=
  new_document sp wd up lo mapping preserve (find_all path root).
