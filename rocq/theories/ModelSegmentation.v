(** Model of annotation/segmentation_annotator.py. *)
From Verif Require Import Base ModelTags ModelTei ModelTeiDoc ModelClusters.
Open Scope Z_scope.

Section Segmentation.
Variable sp dg : N -> bool.          (* \s, \d *)
Variable parse_int : str -> option Z. (* [int(text)], [None] for ValueError *)

(** L106-112, L141-146: [_set_line_tokens_tag], [_clear_line_token_tags]: every token of
    the line in turn *)
Definition set_line_tokens_tag (v : ostr) (l : line) : line :=
  fold_left (fun l j => set_tag_line sp LMain j v l) (seq 0 (length l)) l.
Definition clear_line_token_tags (l : line) : line :=
  fold_left (fun l j => match nth_error l j with
                        | Some t => if truthy (tag t) then set_tag_line sp LMain j None l else l
                        | None => l
                        end) (seq 0 (length l)) l.
Definition words_of (l : line) : list tok := filter (fun t => negb (is_space sp t)) l.
(** matching_utils.py L105-106: [join_tokens_text] *)
Fixpoint join_space (l : list str) : str :=
  match l with [] => [] | [s] => s | s :: l' => s ++ 32%N :: join_space l' end.
Definition line_text (l : line) : str := join_space (map tx (words_of l)).

(** L158-186: [SegmentationLine]; [line_index] is the position in the list *)
Record segline := mkSeg { sl_line : line; sl_tag : ostr; sl_text : str }.
Definition set_seg (v : str) (s : segline) : segline := mkSeg (set_line_tokens_tag (Some v) (sl_line s)) (Some v) (sl_text s).
Definition clear_seg (s : segline) : segline := mkSeg (clear_line_token_tags (sl_line s)) None (sl_text s).

(** L149-155: [get_segmentation_tag_name_by_tag_name]: later entries win.  L6-14 of
    misc.py: [get_dict_safe] *)
Definition segmentation_tag_of (mapping : list (str * list str)) (name : ostr) : ostr :=
  match name with
  | None => None
  | Some n => option_map fst (find (fun e => mem n (snd e)) (rev mapping))
  end.

(** [Counter(l).most_common()]: distinct elements in order of first occurrence, sorted by
    descending count (stable) *)
Section Count.
Context {A : Type} (eqb : A -> A -> bool).
Definition count_of (x : A) (l : list A) : Z := Z.of_nat (length (filter (eqb x) l)).
Fixpoint distinct (seen l : list A) : list A :=
  match l with
  | [] => []
  | x :: l' => if existsb (eqb x) seen then distinct seen l' else x :: distinct (seen ++ [x]) l'
  end.
Definition most_common (l : list A) : list (A * Z) :=
  sort (fun a b => snd b <=? snd a) (map (fun x => (x, count_of x l)) (distinct [] l)).
End Count.

Record seg_config := mkSegConfig {
  sc_mapping : list (str * list str); sc_front_max : Z; sc_header_max : Z; sc_no_merge_references : bool }.

(** L419-447: first loop of [annotate] *)
Definition seg_first (c : seg_config) (l : line) : segline :=
  let s := mkSeg l None (line_text l) in
  match most_common ostreq (map (fun t => strip_tag_prefix (tag t)) (words_of l)) with
  | [] => s
  | (majority, _) :: _ =>
      let st := segmentation_tag_of (sc_mapping c) majority in
      let s1 :=
        match st with
        | Some ((_ :: _) as v) =>
            if ostreq st majority && sc_no_merge_references c then s else set_seg v s
        | _ => match majority with None => clear_seg s | Some _ => s end
        end in
      mkSeg (sl_line s1) (oor st majority) (sl_text s1)
  end.

(** L208-229: [clear_front_tags_for_front_blocks_starting_after_threshold] *)
Fixpoint clear_front (max : Z) (block : ostr) (start index : Z) (ls : list segline) : list segline :=
  match ls with
  | [] => []
  | s :: ls' =>
      let changed := negb (ostreq (sl_tag s) block) in
      let block' := if changed then sl_tag s else block in
      let start' := if changed then index else start in
      (if ostreq block' (Some (u "front")) && (max <? start') then clear_seg s else s)
        :: clear_front max block' start' (index + 1) ls'
  end.
Definition clear_front_after_threshold (max : Z) (ls : list segline) : list segline :=
  if max =? 0 then ls else clear_front max None 0 0 ls.

Definition seg_untagged (s : segline) : bool := negb (truthy (sl_tag s)).
(** L232-240: [apply_preserved_page_numbers], L133-138 *)
Definition shows_page (s : segline) : bool :=
  existsb (fun t => ostreq (tag_or_preserved LMain t) (Some (u "page"))) (words_of (sl_line s)).
Definition apply_preserved_pages (ls : list segline) : list segline :=
  map (fun s => if seg_untagged s && shows_page s then set_seg (u "page") s else s) ls.

(** L248-256: [is_valid_page_number_candidate] ([$] also matches before a final line
    feed), [parse_page_number] *)
Definition digits_only (s : str) : bool :=
  let d := match rev s with 10%N :: r => rev r | _ => s end in
  match d with [] => false | _ => forallb dg d end.
Definition page_number (s : str) : Z := match parse_int s with Some n => n | None => -1 end.

(** lines with their index *)
Fixpoint indexed (i : nat) (ls : list segline) : list (nat * segline) :=
  match ls with [] => [] | s :: ls' => (i, s) :: indexed (S i) ls' end.
Definition numbers (f : segline -> bool) (ls : list segline) : list (Z * nat) :=
  map (fun p => (page_number (sl_text (snd p)), fst p)) (filter (fun p => f (snd p)) (indexed 0 ls)).
(** L285-296: inner loop, for one existing page number; the result are the lines that are
    tagged and the lowest number *)
Fixpoint fill_gap (min_line max_line : nat) (max_page min_page : Z) (cands : list (Z * nat)) : list nat :=
  match cands with
  | [] => []
  | (n, i) :: cs =>
      if (i <? min_line)%nat || (max_line <? i)%nat || (n <? min_page) || (max_page <? n)
      then fill_gap min_line max_line max_page min_page cs
      else i :: fill_gap min_line max_line max_page (min_page + 1) cs
  end.
(** L280-298 *)
Fixpoint fill_gaps (min_line : nat) (min_page : Z) (existing cands : list (Z * nat)) : list nat :=
  match existing with
  | [] => []
  | (n, i) :: ex => fill_gap min_line i (n - 1) min_page cands ++ fill_gaps i (n - 1 + 1) ex cands
  end.
Definition missing_pages (ls : list segline) : list nat :=
  fill_gaps 0 1
    (numbers (fun s => ostreq (sl_tag s) (Some (u "page"))) ls)
    (numbers (fun s => seg_untagged s && digits_only (sl_text s)) ls).
Definition set_segs (v : str) (is : list nat) (ls : list segline) : list segline :=
  fold_left (fun ls i => update_nth i (set_seg v) ls) is ls.
Definition find_missing_pages (ls : list segline) : list segline := set_segs (u "page") (missing_pages ls) ls.

(** L301-317: [is_valid_page_header_candidate] *)
Definition valid_header (text : str) (count min_count : Z) : bool :=
  if count <? min_count then false
  else if match text with [] => false | _ => forallb (fun c => dg c || sp c || (c =? 46)%N) text end then false
  else negb (Z.of_nat (length (filter sp text)) + 1 <? 2).
(** L334-338: index of the first line with the text ([-1] if there is none) *)
Fixpoint first_index (text : str) (i : Z) (ls : list segline) : Z :=
  match ls with [] => -1 | s :: ls' => if streq (sl_text s) text then i else first_index text (i + 1) ls' end.
Definition set_text (text v : str) (ls : list segline) : list segline :=
  map (fun s => if streq (sl_text s) text then set_seg v s else s) ls.
(** L320-350: [find_and_tag_page_headers]; [min_count] is None until a header is found *)
Definition header_step (max_first : Z) (st : option Z * list segline) (tc : str * Z) : option Z * list segline :=
  let '(min_count, ls) := st in
  let '(text, count) := tc in
  if negb (valid_header text count (match min_count with None => 2 | Some m => m end)) then st
  else if max_first <=? first_index text 0 ls then st
  else (match min_count with None => Some (Z.max 2 (count - 1)) | Some _ => min_count end, set_text text (u "headnote") ls).
Definition find_page_headers (max_first : Z) (ls : list segline) : list segline :=
  snd (fold_left (header_step max_first) (most_common streq (map sl_text (filter seg_untagged ls))) (None, ls)).

(** L353-399: [merge_lines]; [cands] are the positions of the candidates.  Only lines
    before the current one are written. *)
Definition oin (v : ostr) (l : list str) : bool := match v with Some x => mem x l | None => false end.
Definition merge_step (preserve : bool) (enabled : list str) (st : list nat * ostr * list segline) (p : nat * segline)
  : list nat * ostr * list segline :=
  let '(cands, prev, ls) := st in
  let '(i, s) := p in
  let t := sl_tag s in
  if oin t [u "headnote"; u "page"] then st
  else
    let cands1 := if truthy t && negb (ostreq prev t) then [] else cands in
    let prev1 := if truthy t then t else prev in
    match t with
    | Some v =>
        if mem v enabled then ([], prev1, set_segs v cands1 ls)
        else if truthy t then ([], prev1, ls)
        else if preserve && shows_page s then (cands1, prev1, ls)
        else (if oin prev1 enabled then cands1 ++ [i] else cands1, prev1, ls)
    | None =>
        if preserve && shows_page s then (cands1, prev1, ls)
        else (if oin prev1 enabled then cands1 ++ [i] else cands1, prev1, ls)
    end.
Definition merge_lines (preserve : bool) (enabled remaining : list str) (ls : list segline) : list segline :=
  let '(cands, prev, ls') := fold_left (merge_step preserve enabled) (indexed 0 ls) ([], Some (u "front"), ls) in
  match cands, prev with
  | _ :: _, Some v => if mem v remaining then set_segs v cands ls' else ls'
  | _, _ => ls'
  end.

(** L409-474: [annotate] *)
Definition segment_lines (c : seg_config) (preserve : bool) (d : doc) : list segline :=
  let ls := map (seg_first c) d in
  let ls := clear_front_after_threshold (sc_front_max c) ls in
  let ls := if preserve then apply_preserved_pages ls else ls in
  let ls := find_missing_pages ls in
  let ls := find_page_headers (sc_header_max c) ls in
  let ls := merge_lines preserve
              (if sc_no_merge_references c then [u "front"; u "annex"] else [u "front"; u "annex"; u "reference"]) [u "annex"] ls in
  if preserve then ls
  else map (fun s => if seg_untagged s then set_seg (u "body") s else s) ls.
Definition segmentation (c : seg_config) (preserve : bool) (d : doc) : doc := map sl_line (segment_lines c preserve d).
End Segmentation.
