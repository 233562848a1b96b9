(** Model of target annotations: core/annotation/target_annotation.py (T below) and
    annotation/target_annotation.py (A below), utils/xml.py L26-39 (X). *)
From Verif Require Import Base ModelFuzzyMatch ModelClusters.
Open Scope Z_scope.

(** [s.replace(old, new)] for a non-empty [old]: left to right, not overlapping *)
Fixpoint replace_go (old new : str) (skip : nat) (s : str) : str :=
  match s with
  | [] => []
  | c :: s' =>
      match skip with
      | S k => replace_go old new k s'
      | O => if starts_with old s then new ++ replace_go old new (length old - 1) s'
             else c :: replace_go old new 0 s'
      end
  end.
Definition py_replace (old new s : str) : str := replace_go old new 0 s.

(** T L84-89: [relace_recursive] *)
Fixpoint replace_recursive (fuel : nat) (old new s : str) : res str :=
  match fuel with
  | O => Err OutOfFuel
  | S f => let s' := py_replace old new s in
           if streq s' s then Ok s else replace_recursive f old new s'
  end.
(** T L92-103: [strip_whitespace] *)
Definition ch_tab : N := 9%N.
Definition ch_lf : N := 10%N.
Definition ch_cr : N := 13%N.
Definition ch_sp : N := 32%N.
Definition replacements : list (str * str) :=
  [([ch_tab], [ch_sp]); ([ch_sp; ch_sp], [ch_sp]); ([ch_cr], [ch_lf]);
   ([ch_sp; ch_lf], [ch_lf]); ([ch_lf; ch_sp], [ch_lf]); ([ch_lf; ch_lf], [ch_lf])].
Definition strip_whitespace (fuel : nat) (s : str) : res str :=
  foldM (fun s on => replace_recursive fuel (fst on) (snd on) s) s replacements.

Section Target.
Variable sp : N -> bool. (* str.isspace *)
Variable wd : N -> bool. (* \w *)

(** [s.lstrip()], [s.strip()] *)
Fixpoint lstrip (s : str) : str :=
  match s with c :: s' => if sp c then lstrip s' else s | [] => [] end.
Definition strip (s : str) : str := rev (lstrip (rev (lstrip s))).
(** T L106-107: [get_stripped_text_content], from the text content *)
Definition stripped_text (fuel : nat) (content : str) : res str := strip_whitespace fuel (strip content).

(** T L279-306: [extract_using_regex]; [spans] are the positions of the first group
    for the matches found by [finditer] *)
Inductive extracted := One (s : str) | Many (l : list str).
Definition extract_step (s : str) (st : list str * Z) (m : Z * Z) : list str * Z :=
  let (result, start) := st in
  (result ++ (if start <? fst m then [strip (py_slice s start (fst m))] else [])
          ++ [py_slice s (fst m) (snd m)], snd m + 1).
Definition extract_pieces (s : str) (spans : list (Z * Z)) : list str :=
  let (result, start) := fold_left (extract_step s) spans ([], 0) in
  if start <? slen s then result ++ [strip (py_from s start)] else result.
Definition extract_using_regex (s : str) (spans : list (Z * Z)) : extracted :=
  match spans with
  | [] => One s
  | _ => match extract_pieces s spans with [r] => One r | l => Many (l ++ [s]) end
  end.
(** T L123-126: [flatten_if_nested] for lists of extracted values *)
Definition flatten_extracted (l : list extracted) : list str :=
  flat_map (fun x => match x with One s => [s] | Many l => l end) l.

(** Elements with comments: text, children, tail; a comment has a text and a tail. *)
Inductive node :=
| El (text : str) (children : list node) (tail : str)
| Cm (text : str) (tail : str).
Definition ntail (n : node) : str := match n with El _ _ tl | Cm _ tl => tl end.
(** [node.itertext()]: not the text of comments.  Missing texts are []; they are not
    yielded. *)
Definition some_text (s : str) : list str := match s with [] => [] | _ => [s] end.
Fixpoint itertext (n : node) : list str :=
  match n with
  | El text cs _ => some_text text ++ flat_map (fun c => itertext c ++ some_text (ntail c)) cs
  | Cm _ _ => []
  end.
(** X L26-38: [iter_text_content_and_exclude]; nodes are identified by their path
    (child indices); [none] iff nothing is excluded.  A text that is not [None] is
    yielded even if empty; the model leaves out empty texts. *)
Fixpoint text_and_exclude (excl : list nat -> bool) (path : list nat) (n : node) : list str :=
  match n with
  | El text cs _ =>
      some_text text ++
      (fix go (i : nat) (l : list node) : list str :=
         match l with
         | [] => []
         | c :: l' =>
             (if excl (path ++ [i]) then [] else text_and_exclude excl (path ++ [i]) c)
             ++ some_text (ntail c) ++ go (S i) l'
         end) O cs
  | Cm text _ => some_text text
  end.
Definition text_content_and_exclude (excl : list nat -> bool) (none : bool) (n : node) : list str :=
  if none then itertext n else text_and_exclude excl [] n.

(** A L40-48: [contains_raw_text] *)
Definition leaf (n : node) : bool := match n with El _ (_ :: _) _ => false | _ => true end.
Fixpoint contains_raw_text (n : node) : bool :=
  match n with
  | El text cs _ =>
      negb (blank sp text) ||
      existsb (fun c => negb (blank sp (ntail c)) || (negb (leaf c) && contains_raw_text c)) cs
  | Cm _ _ => false
  end.
(** A L49-54: [re.match(r'.*\w$', text)]: [.] does not match a line feed, [$] matches at
    the end and before a final line feed; [re.match(r'^\w.*', text)] *)
Definition ends_with_word (s : str) : bool :=
  let one_line t := match rev t with c :: _ => wd c && forallb (fun c => negb (N.eqb c ch_lf)) (removelast t) | [] => false end in
  one_line s || match rev s with c :: t => N.eqb c ch_lf && one_line (rev t) | [] => false end.
Definition starts_with_word (s : str) : bool := match s with c :: _ => wd c | [] => false end.
(** A L65-71: [get_raw_text_content], from the texts *)
Fixpoint raw_text_go (prev : option str) (l : list str) : str :=
  match l with
  | [] => []
  | t :: l' =>
      (if match prev with Some p => ends_with_word p && starts_with_word t | None => false end then [ch_sp] else [])
      ++ t ++ raw_text_go (Some t) l'
  end.
Definition raw_text (l : list str) : str := raw_text_go None l.
End Target.

(** T L379-447, A L162-239: one entry per matched element of a field.  The values
    extracted from the element are given: [m_texts] is [text_content_list],
    [m_standalone] is [standalone_values], [m_pos] the position in document order. *)
Record match_ := mkMatch { m_pos : Z; m_texts : list str; m_standalone : list str }.
Record field := mkField { fd_name : str; fd_priority : Z; fd_matches : list match_ }.
Inductive tvalue := VOne (s : str) | VMany (l : list str).
Record target := mkTarget { ta_name : str; ta_value : tvalue }.
(** sort keys: (-priority, pos) or (-priority, pos, i) *)
Definition key := (Z * Z * option Z)%type.
Definition optz_leb (a b : option Z) : bool :=
  match a, b with None, _ => true | Some _, None => false | Some x, Some y => x <=? y end.
Definition key_leb (a b : key) : bool :=
  let '(p, e, i) := a in let '(p', e', i') := b in
  (p <? p') || ((p =? p') && ((e <? e') || ((e =? e') && optz_leb i i'))).
(** [sorted(text_content_list, key=lambda s: -len(s))] *)
Definition longest_first (l : list str) : list str := sort (fun a b => slen b <=? slen a) l.
Definition text_value (l : list str) : option tvalue :=
  match l with [] => None | [s] => Some (VOne s) | _ => Some (VMany (longest_first l)) end.
Definition indexed {A} (l : list A) : list (Z * A) := combine (map Z.of_nat (seq 0 (length l))) l.
Definition match_entries (f : field) (m : match_) : list (key * target) :=
  match text_value (m_texts m) with
  | Some v => [((- fd_priority f, m_pos m, None), mkTarget (fd_name f) v)]
  | None => []
  end ++
  map (fun iv => ((- fd_priority f, m_pos m, Some (fst iv)), mkTarget (fd_name f) (VOne (snd iv)))) (indexed (m_standalone m)).
Definition entries (l : list field) : list (key * target) :=
  flat_map (fun f => flat_map (match_entries f) (fd_matches f)) l.
Definition sorted_entries (l : list field) : list (key * target) :=
  sort (fun a b => key_leb (fst a) (fst b)) (entries l).
Definition target_annotations (l : list field) : list target := map snd (sorted_entries l).
