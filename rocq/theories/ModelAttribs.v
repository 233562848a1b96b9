(** Model of tags as attributes of tokens: core/structured_document/__init__.py (C below) L8-46, L63-121, L158-260 and
    structured_document/grobid_training_tei.py (G) L38-46, L76-96, L336-337, L577-598, L630-705.
    ModelTei and ModelTeiDoc have a field for each of the four tags of a token; here a token has a dictionary, as in the
    code, and the names of the attributes are computed from scope and level.
    Simplified: attributes of [SimpleToken] other than tags, and bounding boxes, are left out; a level is a number
    or a text; [set_or_remove_attrib] as in ModelTeiDoc; the two documents of [merge_with] share no tokens. *)
From Coq Require Import DecimalString.
From Verif Require Import Base ModelTags ModelTokenize ModelXml ModelTei ModelTeiDoc ModelJatsText.
Open Scope string_scope.
Open Scope list_scope.
Open Scope nat_scope.

(** C L13: [T_Tag_Level], or no level *)
Inductive tag_level := NoLevel | IntLevel (z : Z) | TextLevel (s : str).
(** [str] of a number *)
Definition int_text (z : Z) : str := u (NilZero.string_of_int (Z.to_int z)).
Definition level_given (l : tag_level) : bool :=
  match l with NoLevel => false | IntLevel z => negb (Z.eqb z 0) | TextLevel s => nonempty s end.
Definition level_text (l : tag_level) : str :=
  match l with NoLevel => u "None" | IntLevel z => int_text z | TextLevel s => s end.
(** C L30-33: [get_scoped_attrib_name] *)
Definition scoped_name (name : str) (scope : ostr) (l : tag_level) : str :=
  let name' := if level_given l then u "level" ++ level_text l ++ u "_" ++ name else name in
  match scope with Some ((_ :: _) as s) => s ++ u "-" ++ name' | _ => name' end.
(** C L36-42: [get_attrib_by_scope]; a dictionary with scopes as keys *)
Definition by_scope {V} (attrib : list (str * V)) (name : str) : list (ostr * V) :=
  let suffix := u "-" ++ name in
  flat_map (fun kv => if ends_with suffix (fst kv) || streq (fst kv) name
                      then [(if streq (fst kv) name then None else Some (firstn (length (fst kv) - length suffix) (fst kv)), snd kv)]
                      else []) attrib.
(** [del attrib[k]] if there is such a key *)
Definition dict_del {V} (k : str) (d : list (str * V)) : list (str * V) := filter (fun kv => negb (streq k (fst kv))) d.

(** G L38-46 *)
Definition TAG : str := u "tag".
Definition PRESERVED : str := u "preserved_tag".
Definition SUB_LEVEL : tag_level := IntLevel 2.
Definition SUB_TAG : str := scoped_name TAG None SUB_LEVEL.
Definition PRESERVED_SUB : str := scoped_name PRESERVED None SUB_LEVEL.

(* ---------------------------------------------------------------- *)
(** ** Tokens of GROBID training TEI *)
Record atok := mkATok { a_text : str; a_ws : ostr; a_attrib : list (str * str) }.
(** [set_or_remove_attrib(token.attrib, name, v)] *)
Definition set_or_remove (name : str) (v : ostr) (t : atok) : atok :=
  mkATok (a_text t) (a_ws t) (match v with Some x => dict_set name x (a_attrib t) | None => dict_del name (a_attrib t) end).
(** G L79-113: [TeiText] without attributes *)
Definition new_token (text : str) (tag sub_tag whitespace : ostr) : atok :=
  let d1 := match tag with Some v => dict_set TAG v [] | None => [] end in
  mkATok text whitespace (match sub_tag with Some v => dict_set SUB_TAG v d1 | None => d1 end).
(** G L633-643 *)
Definition a_get_tag (scope : ostr) (l : tag_level) (t : atok) : ostr := dict_get (scoped_name TAG scope l) (a_attrib t).
Definition a_get_preserved (scope : ostr) (l : tag_level) (t : atok) : ostr := dict_get (scoped_name PRESERVED scope l) (a_attrib t).
Definition a_tag_or_preserved (scope : ostr) (l : tag_level) (t : atok) : ostr := oor (a_get_tag scope l t) (a_get_preserved scope l t).
(** G L648-667, L692-697 *)
Definition a_set_tag_only (scope : ostr) (l : tag_level) (v : ostr) (t : atok) : atok := set_or_remove (scoped_name TAG scope l) v t.
Definition a_set_sub_tag_only (v : ostr) (t : atok) : atok := set_or_remove SUB_TAG v t.
Definition a_clear_preserved_sub (t : atok) : atok := set_or_remove PRESERVED_SUB None t.
Definition a_clear_preserved_only (scope : ostr) (l : tag_level) (t : atok) : atok := set_or_remove (scoped_name PRESERVED scope l) None t.
Definition a_set_preserved (l : tag_level) (v : ostr) (t : atok) : atok := set_or_remove (scoped_name PRESERVED None l) v t.

Section Lines.
Variable sp : N -> bool.
(** G L682-690 *)
Definition a_clear_same (l : tag_level) (j : nat) (ts : list atok) : list atok :=
  match nth_error ts j with
  | None => ts
  | Some t =>
      let p := strip_tag_prefix (a_get_preserved None l t) in
      if truthy p then map (fun x => if ostreq (strip_tag_prefix (a_get_preserved None l x)) p then a_set_preserved l None x else x) ts else ts
  end.
(** G L668-680: the previous tag is the one without scope *)
Definition a_set_tag (scope : ostr) (l : tag_level) (j : nat) (v : ostr) (ts : list atok) : list atok :=
  match nth_error ts j with
  | None => ts
  | Some t =>
      let ts1 := update_nth j (a_set_tag_only scope l v) ts in
      if blank sp (a_text t) then ts1
      else if ostreq (strip_tag_prefix v) (strip_tag_prefix (a_tag_or_preserved None l t)) then ts1
      else let ts2 := a_clear_same l j ts1 in
           match l with NoLevel => a_clear_same SUB_LEVEL j ts2 | _ => ts2 end
  end.
End Lines.
(** G L577-592 *)
Definition a_preserve (mapping : list (str * str)) (t : atok) : atok :=
  fold_left (fun t l => a_set_preserved l (preserve_tag mapping (a_get_tag None l t)) t) [NoLevel; SUB_LEVEL] t.
(** G L594-598 *)
Definition a_reset (t : atok) : atok := a_set_sub_tag_only None (a_set_tag_only None NoLevel None t).
(** annotation/annotator.py L35-45 *)
Definition a_map_tag (tag_fn : ostr -> ostr) (l : tag_level) (t : atok) : atok :=
  let old := a_tag_or_preserved None l t in
  let new := tag_fn old in
  if ostreq new old then t else a_clear_preserved_only None l (a_set_tag_only None l new t).
(** G L699-700 *)
Definition a_tag_by_scope (t : atok) : list (ostr * str) := by_scope (a_attrib t) TAG.

(* ---------------------------------------------------------------- *)
(** ** Simple documents *)
(** C L170-205: here a tag can be set to None *)
Record stok := mkSTok { s_text : str; s_attrib : list (str * ostr) }.
Definition s_get_tag (scope : ostr) (l : tag_level) (t : stok) : ostr :=
  match dict_get (scoped_name TAG scope l) (s_attrib t) with Some v => v | None => None end.
Definition s_set_tag (scope : ostr) (l : tag_level) (v prefix : ostr) (t : stok) : stok :=
  mkSTok (s_text t) (dict_set (scoped_name TAG scope l) (add_tag_prefix v prefix) (s_attrib t)).
Definition s_tag_by_scope (t : stok) : list (ostr * ostr) := by_scope (s_attrib t) TAG.
(** pages, lines, tokens; C L70-74: [iter_all_tokens] *)
Definition sdoc := list (list (list stok)).
Definition all_tokens (d : sdoc) : list stok := concat (concat d).
(** C L16-27: [merge_token_tag] *)
Definition merge_token_tag (source_scope target_scope : ostr) (merged other : stok) : stok :=
  let tag := s_get_tag source_scope NoLevel other in
  if truthy tag then s_set_tag target_scope NoLevel tag None merged else merged.
(** C L76-97: [merge_with]: the tokens of both documents side by side, until one of them has no more; the merged
    document keeps its pages and lines.  [os] are the tokens of the other document that are left. *)
Section Merge.
Variable merge : stok -> stok -> stok.
Fixpoint merge_list {X} (f : list stok -> X -> res (X * list stok)) (os : list stok) (xs : list X) : res (list X * list stok) :=
  match xs with
  | [] => Ok ([], os)
  | x :: xs' => do (x', os') <- f os x ;; do (xs'', os'') <- merge_list f os' xs' ;; Ok (x' :: xs'', os'')
  end.
Definition merge_one (os : list stok) (t : stok) : res (stok * list stok) :=
  match os with
  | [] => Ok (t, [])
  | o :: os' => if streq (s_text t) (s_text o) then Ok (merge t o, os') else Err AssertionError
  end.
Definition merge_with (d other : sdoc) : res sdoc :=
  do (d', _) <- merge_list (merge_list (merge_list merge_one)) (all_tokens other) d ;; Ok d'.
End Merge.
