(** Specification vocabulary for saving: where in the output tree is which text.
    Stated on trees, tokens and paths only. *)
From Verif Require Import Base ModelTags ModelXml ModelTei.

(** an element without its content *)
Definition node := (str * list (str * str))%type.
Definition node_of (e : xml) : node :=
  match e with Elem n a _ _ _ => (n, a) | Misc _ => ([], []) end.

(** The address of an element below the container: child index and node of each
    element on the way down.  Two addresses are equal iff they denote the same
    element. *)
Definition addr := list (nat * node).

(** What a tree consists of, in document order: characters and line breaks (empty
    [lb] elements), each with the address of the element it lies directly in. *)
Inductive piece := PChar (a : addr) (c : N) | PLb (a : addr).

Definition is_break (e : xml) : bool :=
  match e with Elem n [] [] [] _ => streq n (u "lb") | _ => false end.

Fixpoint flat (a : addr) (e : xml) : list piece :=
  match e with
  | Elem _ _ text cs _ =>
      map (PChar a) text
      ++ (fix go (i : nat) (cs : list xml) : list piece :=
            match cs with
            | [] => []
            | c :: cs' =>
                (if is_break c then [PLb a] else flat (a ++ [(i, node_of c)]) c)
                ++ map (PChar a) (xtail c) ++ go (S i) cs'
            end) 0 cs
  | Misc _ => []
  end.

(** What was written, in order. *)
Inductive ev := EvTok (t : tok) (a : addr) | EvLb (a : addr).
Definition flat_ev (e : ev) : list piece :=
  match e with EvTok t a => map (PChar a) (tx t) | EvLb a => [PLb a] end.
Definition ev_addr (e : ev) : addr := match e with EvTok _ a => a | EvLb a => a end.

Definition ev_toks (evs : list ev) : list tok :=
  flat_map (fun e => match e with EvTok t _ => [t] | EvLb _ => [] end) evs.

(** the element path of an address *)
Definition nodes (a : addr) : list node := map snd a.

Definition prefix {A} (p l : list A) : Prop := exists r, l = p ++ r.

Section Layout.
Variable sp : N -> bool.
Variable node_ok : str -> list (str * str) -> bool.
Variable mapping : list (str * str).

(** Words (non-space tokens) of a token sequence, each with the values of the
    begin tags found on the spaces since the word before. *)
Definition begins (t : tok) : ostr :=
  let (p, v) := split_tag_prefix (main_full_tag t) in if is_b p then v else None.
Fixpoint words_go (rs : list str) (l : list tok) : list (list str * tok) :=
  match l with
  | [] => []
  | t :: l' =>
      if is_space sp t
      then words_go (match begins t with Some v => v :: rs | None => rs end) l'
      else (rs, t) :: words_go [] l'
  end.
Definition words_of (l : list tok) : list (list str * tok) := words_go [] l.

(** The elements that stay open between a word written at [path] and the next
    word [t]: a begin tag opens a new element, a different path leaves those
    elements that are not shared. *)
Definition keep (path : list str) (rs : list str) (t : tok) : list str :=
  let (mp, mv) := split_tag_prefix (main_full_tag t) in
  let sp := fst (split_tag_prefix (sub_full_tag t)) in
  if is_b mp then common_path path (removelast (main_path mapping t))
  else if omem mv rs then []
  else if is_b sp then
    match sub_path mapping t with Some q => common_path path (removelast q) | None => [] end
  else common_path path (required_path mapping t).

(** [linked path a earlier W]: the words [W] (with addresses) are located at their
    required paths, each sharing exactly the kept elements with the word before
    (which was at [path], address [a]); the first element that is not shared is
    new: none of the [earlier] words lies in it. *)
Fixpoint linked (path : list str) (a : addr) (earlier : list addr)
    (W : list (list str * tok * addr)) : Prop :=
  match W with
  | [] => True
  | (rs, t, b) :: W' =>
      let k := length (keep path rs t) in
      Forall2 (fun frag x => create_node node_ok frag = Ok (snd x)) (required_path mapping t) b /\
      k <= length a /\ k <= length b /\
      firstn k b = firstn k a /\
      (k < length b -> forall c, In c earlier -> ~ prefix (firstn (S k) b) c) /\
      linked (required_path mapping t) b (earlier ++ [b]) W'
  end.

(** words of what was written *)
Definition ev_words (evs : list ev) : list (tok * addr) :=
  flat_map (fun e => match e with
    | EvTok t a => if is_space sp t then [] else [(t, a)] | EvLb _ => [] end) evs.
(** words and line breaks of what was written / of the lines *)
Definition ev_skeleton (evs : list ev) : list (option tok) :=
  flat_map (fun e => match e with
    | EvTok t _ => if is_space sp t then [] else [Some t] | EvLb _ => [None] end) evs.
Definition lines_items (ls : list line) : list (option tok) :=
  match ls with
  | [] => []
  | l :: ls' => map Some l ++ flat_map (fun l => None :: map Some l) ls'
  end.
Definition skeleton (l : list (option tok)) : list (option tok) :=
  filter (fun o => match o with Some t => negb (is_space sp t) | None => true end) l.

(** line breaks lie where the word before lies; spaces lie in an ancestor of (or
    the same element as) the next word, trailing spaces directly in the container *)
Fixpoint next_addr (evs : list ev) : addr :=
  match evs with
  | [] => []
  | EvTok t a :: r => if is_space sp t then next_addr r else a
  | EvLb _ :: r => next_addr r
  end.
Fixpoint placed (prev : addr) (evs : list ev) : Prop :=
  match evs with
  | [] => True
  | EvLb a :: r => a = prev /\ placed prev r
  | EvTok t a :: r =>
      if is_space sp t then prefix a (next_addr r) /\ placed prev r else placed a r
  end.
(** spaces are not written into an element that is opened for the next word's main
    or sub tag: they lie inside the next word's main element, or an element below
    it, exactly if the word before does *)
Fixpoint next_word (evs : list ev) : option (tok * addr) :=
  match evs with
  | [] => None
  | EvTok t a :: r => if is_space sp t then next_word r else Some (t, a)
  | EvLb _ :: r => next_word r
  end.
Fixpoint spaced (prev : addr) (evs : list ev) : Prop :=
  match evs with
  | [] => True
  | EvLb _ :: r => spaced prev r
  | EvTok t a :: r =>
      if is_space sp t then
        match next_word r with
        | Some (w, b) =>
            forall n, length (main_path mapping w) <= n -> n <= length b ->
              (length a < n <-> ~ prefix (firstn n b) prev)
        | None => True
        end /\ spaced prev r
      else spaced a r
  end.
End Layout.

(* ---------------------------------------------------------------- *)
(** Where the words of a document are in a tree: [layout r ls W] says that the tree
    [r] contains the texts of the tokens of [ls] one after the other, and lists
    its words with their addresses (and with the begin tags found on the spaces
    before each word). *)
Definition layout (sp : N -> bool) (r : xml) (ls : list line)
    (W : list (list str * tok * addr)) : Prop :=
  exists evs,
    flat [] r = flat_map flat_ev evs /\
    ev_toks evs = concat ls /\
    map fst W = words_of sp (concat ls) /\
    map (fun x => (snd (fst x), snd x)) W = ev_words sp evs.

(** the shown tag: the tag that was set, else the remembered one; its prefix and
    its value *)
Definition shown_tag (t : tok) : ostr := oor (tag t) (ptag t).
Definition shown_sub_tag (t : tok) : ostr := oor (sub t) (psub t).
Definition value (o : ostr) : ostr := snd (split_tag_prefix o).
Definition begin (o : ostr) : bool := is_b (fst (split_tag_prefix o)).

(** the element path the mapping gives for a tag value *)
Definition path_of (mapping : list (str * str)) (v : str) : list str :=
  split_path (match dict_get v mapping with Some p => p | None => v end).

(** the address of an element whose path below the container is [p] *)
Definition located (node_ok : str -> list (str * str) -> bool) (p : list str) (a : addr) : Prop :=
  Forall2 (fun frag x => create_node node_ok frag = Ok (snd x)) p a.

(** saving is possible: every path element is an element lxml can create *)
Definition creatable (node_ok : str -> list (str * str) -> bool) (p : list str) : Prop :=
  Forall (fun f => exists na, create_node node_ok f = Ok na) p.
(** no path element denotes a line break *)
Definition no_lb (node_ok : str -> list (str * str) -> bool) (p : list str) : Prop :=
  Forall (fun f => forall na, create_node node_ok f = Ok na -> fst na <> u "lb") p.
