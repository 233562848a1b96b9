(** Specification of what loading should produce, stated on the element tree
    alone (no buffer, no state). *)
From Verif Require Import Base ModelTags ModelTokenize ModelXml ModelTei.

(** What a document consists of, in document order: tokens with their main
    tag, and line breaks. *)
Inductive item := ITok (text : str) (tag : ostr) | ILb.

Section Spec.
Variables sp wd up lo : N -> bool.
Variable root_paths : list str.

Definition toks (s : str) : list (option str) := map Some (tokenize_text wd up lo s).
Definition lb_of (c : xml) : list (option str) := if is_lb c then [None] else [].

(** all tokens ([Some]) and line breaks ([None]) inside an element *)
Fixpoint inner (e : xml) : list (option str) :=
  match e with
  | Elem _ _ text cs _ =>
      toks text ++ flat_map (fun c => lb_of c ++ inner c ++ toks (xtail c)) cs
  | Misc _ => []
  end.

Definition untagged (l : list (option str)) : list item :=
  map (fun o => match o with Some s => ITok s None | None => ILb end) l.
Definition with_tag (t : str) (l : list (option str)) : list item :=
  map (fun o => match o with Some s => ITok s (Some t) | None => ILb end) l.
(** first token begins the entity, all others continue it *)
Fixpoint entity (value : str) (l : list (option str)) : list item :=
  match l with
  | [] => []
  | None :: l' => ILb :: entity value l'
  | Some s :: l' => ITok s (Some (u "b-" ++ value)) :: with_tag (u "i-" ++ value) l'
  end.

(** Path expression of an element relative to its parent, e.g.
    [div[@type="abstract"]]. *)
Definition expr (e : xml) : str :=
  match node_to_tag_expression e with Ok s => s | Err _ => [] end.

(** An element is an entity if it directly contains some (non blank) text, or
    its path is one of the mapped paths; the outermost such element counts. *)
Definition is_entity (path : list str) (e : xml) : bool :=
  match e with
  | Elem _ _ text cs _ =>
      negb (blank sp text) || existsb (fun c => negb (blank sp (xtail c))) cs
      || mem (join_path path) root_paths
  | Misc _ => false
  end.

Fixpoint tagged_items (path : list str) (e : xml) : list item :=
  match e with
  | Elem _ _ text cs _ =>
      if is_entity path e then entity (join_path path) (inner e)
      else untagged (toks text)
           ++ flat_map (fun c =>
                untagged (lb_of c) ++ tagged_items (path ++ [expr c]) c ++ untagged (toks (xtail c))) cs
  | Misc _ => []
  end.

(** the container itself is not an entity; the text following it is loaded too *)
Definition container_items (e : xml) : list item :=
  match e with
  | Elem _ _ text cs tl =>
      untagged (toks text)
      ++ flat_map (fun c =>
           untagged (lb_of c) ++ tagged_items [expr c] c ++ untagged (toks (xtail c))) cs
      ++ untagged (toks tl)
  | Misc _ => []
  end.

(** Sub tags of the non-blank tokens.  [nonblank] drops the blank ones.
    Inside an entity, the text at the start of a nested element (before its
    first child) carries the path of this element as sub tag; text after a
    child element carries none. *)
Definition nonblank (l : list item) : list item :=
  filter (fun i => match i with ITok s _ => negb (blank sp s) | ILb => true end) l.

Fixpoint nested_subs (path : list str) (e : xml) : list item :=
  match e with
  | Elem _ _ text cs _ =>
      entity (join_path path) (toks text)
      ++ flat_map (fun c =>
           untagged (lb_of c) ++ nested_subs (path ++ [expr c]) c ++ untagged (toks (xtail c))) cs
  | Misc _ => []
  end.
Fixpoint sub_items (path : list str) (e : xml) : list item :=
  match e with
  | Elem _ _ text cs _ =>
      untagged (toks text)
      ++ flat_map (fun c =>
           untagged (lb_of c)
           ++ (if is_entity path e then nested_subs (path ++ [expr c]) c
               else sub_items (path ++ [expr c]) c)
           ++ untagged (toks (xtail c))) cs
  | Misc _ => []
  end.
Definition container_sub_items (e : xml) : list item :=
  match e with
  | Elem _ _ text cs tl =>
      untagged (toks text)
      ++ flat_map (fun c =>
           untagged (lb_of c) ++ sub_items [expr c] c ++ untagged (toks (xtail c))) cs
      ++ untagged (toks tl)
  | Misc _ => []
  end.

(** loaded lines as items: every line but the last is ended by a line break *)
Fixpoint items_of_lines (f : tok -> ostr) (ls : list line) : list item :=
  match ls with
  | [] => []
  | [l] => map (fun t => ITok (tx t) (f t)) l
  | l :: ls' => map (fun t => ITok (tx t) (f t)) l ++ ILb :: items_of_lines f ls'
  end.
(** a final line break that is followed by no text does not start a line *)
Definition without_final_break (l : list item) : list item :=
  match rev l with ILb :: r => rev r | _ => l end.

(** only the non-blank tokens *)
Definition words (l : list item) : list item :=
  filter (fun i => match i with ITok s _ => negb (blank sp s) | ILb => false end) l.

Definition item_text (i : item) : str := match i with ITok s _ => s | ILb => [] end.
Definition items_text (l : list item) : str := flat_map item_text l.
End Spec.

(** Loading is possible: no element has more than one attribute, there are no
    comments or processing instructions (below the container). *)
Fixpoint loadable (e : xml) : bool :=
  match e with
  | Elem _ _ _ cs _ =>
      forallb (fun c =>
        match c with
        | Elem _ a _ _ _ => Nat.leb (length a) 1
        | Misc _ => false
        end && loadable c) cs
  | Misc _ => false
  end.

(** element names are not empty (true of every XML document) *)
Fixpoint named (e : xml) : bool :=
  match e with
  | Elem n _ _ cs _ => match n with [] => false | _ => true end && forallb named cs
  | Misc _ => true
  end.

(** The field a path stands for: the last entry of the mapping with this path;
    a path without entry stands for itself.  [rename] applies this to the value
    of a tag (after its two character prefix); a path mapped to the empty field
    name counts as untagged (empty tag). *)
Definition field_of (mapping : list (str * str)) (p : str) : str :=
  match find (fun kv => streq (snd kv) p) (rev mapping) with Some kv => fst kv | None => p end.
Definition rename (f : str -> str) (i : item) : item :=
  match i with
  | ITok s (Some t) =>
      ITok s (Some (match f (skipn 2 t) with [] => [] | name => firstn 2 t ++ name end))
  | _ => i
  end.
