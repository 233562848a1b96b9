(** Model of how target annotations are made from a document:
    annotation/target_annotation.py L57-230 (A below) and
    core/annotation/target_annotation.py L106-311 (T).

    Elements are identified by their path (child indices) in the tree.  XPath, regular
    expressions, JSON and numbers are parameters.  Simplified: XPath expressions find
    elements of the tree (no attributes or numbers); [strip_all] and [filter_truthy]
    (sciencebeam_utils) strip each text and drop the empty ones; [get_text_content]
    without exclusions is the concatenated [itertext], [get_immediate_text] is
    [node.xpath('text()')]. *)
From Verif Require Import Base ModelFuzzyMatch ModelClusters ModelJoined ModelWordMatch ModelTarget ModelMapping ModelTagConfigs ModelSimpleMatch ModelMatch.
Open Scope list_scope.
Open Scope nat_scope.

Notation npath := (list nat).
Fixpoint peq (a b : npath) : bool :=
  match a, b with
  | [], [] => true
  | x :: a', y :: b' => Nat.eqb x y && peq a' b'
  | _, _ => false
  end.
Definition pmem (p : npath) (l : list npath) : bool := existsb (peq p) l.
(** [getparent] *)
Definition parent (p : npath) : option npath := match p with [] => None | _ => Some (removelast p) end.
Definition nchildren (n : node) : list node := match n with El _ cs _ => cs | Cm _ _ => [] end.
Fixpoint node_at (n : node) (p : npath) : option node :=
  match p with
  | [] => Some n
  | i :: p' => match nth_error (nchildren n) i with Some c => node_at c p' | None => None end
  end.
(** [root.iter()]: document order *)
Fixpoint paths_from (pre : npath) (n : node) : list npath :=
  pre :: match n with
         | El _ cs _ =>
             (fix go (i : nat) (l : list node) : list npath :=
                match l with [] => [] | c :: l' => paths_from (pre ++ [i]) c ++ go (S i) l' end) O cs
         | Cm _ _ => []
         end.
Fixpoint index_of (p : npath) (l : list npath) : nat :=
  match l with [] => 0 | q :: l' => if peq p q then 0 else S (index_of p l') end.

(** T L132-146 *)
Definition exclude_parents (l : list npath) : list npath :=
  let parents := flat_map (fun p => match parent p with Some q => [q] | None => [] end) l in
  filter (fun p => negb (pmem p parents)) l.

(** the parsed JSON: an entry of [children.concat] is a list of sources; a source without
    'xpath' has a 'value' *)
Record source := mkSource { s_xpath : ostr; s_value : ostr }.
Record range_item := mkRangeItem { ri_min : source; ri_max : source; ri_standalone : bool }.

(** The options of a field *)
Record fconf := mkFconf {
  fc_xpaths : list str; fc_ignore : list str; fc_children : list str;
  fc_concat : list (list source); fc_range : list range_item; fc_unmatched : bool;
  fc_regex : ostr; fc_extract : ostr; fc_priority : Z; fc_raw : option bool;
  fc_multiple : bool; fc_bonding : bool; fc_next : bool;
  fc_subs : list (str * str * ostr) (* name, xpath, extract-regex *) }.
(** T L49-63: a target annotation with its flags *)
Record tgt := mkTgt { tg_name : str; tg_value : tvalue; tg_multiple : bool; tg_bonding : bool; tg_next : bool;
  tg_subs : list (str * tvalue) }.
(** as seen by the two matchers *)
Definition tann_of (t : tgt) : tann := mkTann (tg_name t) (tg_value t) (tg_subs t).
Definition mann_of (t : tgt) : mann :=
  mkMann (tg_name t) (tg_value t) (tg_multiple t) (tg_bonding t) (tg_next t) (map (fun s => mkMsub (fst s) (snd s) false) (tg_subs t)).

Section Targets.
Variables sp wd dg : N -> bool.          (* str.isspace, \w, str.isdigit *)
Variable lower : str -> str.             (* str.lower *)
Variable compiles : str -> bool.         (* re.compile does not raise *)
Variable parse_int : str -> option Z.    (* int(s) *)
Variable show_int : Z -> str.            (* str(n) *)
Variable json_concat : str -> res (list (list source)).
Variable json_range : str -> res (list range_item).
(** [compiled_pattern.match(s)] and its first group; the spans of the first group for
    [finditer] *)
Variable re_group : str -> str -> option ostr.
Variable re_spans : str -> str -> list (Z * Z).
Variable xpath : npath -> str -> res (list npath).
(** [get_text_content(node, exclude=...)] *)
Variable content_excluding : list npath -> npath -> str.
Variable root : node.

(* ------------------------------------------------------------------ *)
(** ** Texts *)
Definition content (p : npath) : str := match node_at root p with Some n => concat (itertext n) | None => [] end.
Definition immediate_text (p : npath) : list str :=
  match node_at root p with
  | Some (El text cs _) => some_text text ++ flat_map (fun c => some_text (ntail c)) cs
  | _ => []
  end.
(** T L106-111 *)
Definition stripped (s : str) : res str := stripped_text sp (S (2 * length s)) s.
Definition nonempty {A} (l : list A) : bool := match l with [] => false | _ => true end.
Definition strip_all (l : list str) : list str := map (strip sp) l.
Definition truthy_only (l : list str) : list str := filter nonempty l.

(* ------------------------------------------------------------------ *)
(** ** Children *)
(** T L151-172: [extract_children_source_list] *)
Fixpoint source_list_go (e : npath) (values : list str) (used : list npath) (l : list source) : res (list str * list npath) :=
  match l with
  | [] => Ok (values, used)
  | s :: l' =>
      match s_xpath s with
      | Some ((_ :: _) as x) =>
          do found <- xpath e x ;;
          match exclude_parents found with
          | [] => Ok ([], [])
          | ns =>
              do texts <- mapM (fun p => stripped (content p)) ns ;;
              source_list_go e (values ++ [join_str (u " ") texts]) (used ++ ns) l'
          end
      | _ => source_list_go e (values ++ [match s_value s with Some v => v | None => [] end]) used l'
      end
  end.
Definition source_list (e : npath) (l : list source) : res (list str * list npath) := source_list_go e [] [] l.
(** T L175-186: [extract_children_concat] *)
Definition children_concat (e : npath) (l : list (list source)) : res (list str * list npath) :=
  foldM (fun st item =>
    do r <- source_list e item ;;
    Ok (match fst r with [] => fst st | vs => fst st ++ [concat vs] end, snd st ++ snd r)) ([], []) l.
(** T L189-210: [extract_children_range] *)
Definition is_digits (s : str) : bool := nonempty s && forallb dg s.
Definition numbers (a b : Z) : list Z := map (fun k => (a + Z.of_nat k)%Z) (seq 0 (Z.to_nat (b + 1 - a))).
Definition to_int (s : str) : res Z := match parse_int s with Some z => Ok z | None => Err ValueError end.
Definition range_step (e : npath) (st : list str * list str * list npath) (item : range_item) : res (list str * list str * list npath) :=
  let '(values, standalone, used) := st in
  do r <- source_list e [ri_min item; ri_max item] ;;
  match strip_all (fst r) with
  | [a; b] =>
      if is_digits a && is_digits b then
        do na <- to_int a ;; do nb <- to_int b ;;
        let vs := map show_int (numbers na nb) in
        Ok (if ri_standalone item then (values, standalone ++ vs, used ++ snd r) else (values ++ vs, standalone, used ++ snd r))
      else Ok st
  | _ => Ok st
  end.
Definition children_range (e : npath) (l : list range_item) : res (list str * list str * list npath) :=
  foldM (range_step e) ([], [], []) l.
Definition all_xpaths (e : npath) (xs : list str) : res (list npath) :=
  do ls <- mapM (xpath e) xs ;; Ok (concat ls).
(** T L221-252: [extract_children] *)
Definition extract_children (e : npath) (f : fconf) : res (list str * list str) :=
  do c <- children_concat e (fc_concat f) ;;
  do r <- children_range e (fc_range f) ;;
  let '(range_values, standalone, range_used) := r in
  let used := snd c ++ range_used in
  do found <- all_xpaths e (fc_children f) ;;
  let other := filter (fun p => negb (pmem p used)) found in
  let leaves := exclude_parents other in
  do texts <- mapM (fun p => stripped (content p)) leaves ;;
  let list1 := truthy_only (strip_all (texts ++ fst c ++ range_values)) in
  let inner := filter (fun p => negb (pmem p leaves)) other in
  let list2 := list1 ++ flat_map (fun p => truthy_only (strip_all (immediate_text p))) inner in
  do list3 <- (if fc_unmatched f then
                 do t <- stripped (content_excluding (other ++ used) e) ;;
                 let v := strip sp t in
                 Ok (if nonempty v && negb (mem v list2) then list2 ++ [v] else list2)
               else Ok list2) ;;
  Ok (list3, standalone).

(* ------------------------------------------------------------------ *)
(** ** One element *)
(** A L65-71: [get_raw_text_content] *)
Definition raw_content (excluded : list npath) (e : npath) : str :=
  match node_at root e with
  | Some n => raw_text wd (text_content_and_exclude (fun rel => pmem (e ++ rel) excluded) (negb (nonempty excluded)) n)
  | None => []
  end.
(** A L72-73, L147-155 *)
Definition wildcard : str := u ".//*".
Definition uses_children (f : fconf) (e : npath) : bool :=
  let raw := match fc_raw f with
             | Some b => b
             | None => match node_at root e with Some n => contains_raw_text sp n | None => false end
             end in
  match fc_children f with [] => false | [x] => negb (streq x wildcard) || negb raw | _ => true end.
(** T L124-129 and A L172-181 *)
Definition with_pattern (f : fconf) (l : list str) : list str :=
  match fc_regex f with
  | Some ((_ :: _) as p) => flat_map (fun s => match re_group p s with Some (Some ((_ :: _) as g)) => [g] | Some _ => [] | None => truthy_only [s] end) l
  | _ => l
  end.
Definition truthy_extracted (x : extracted) : bool := match x with One s => nonempty s | Many l => nonempty l end.
Definition with_extract (f : fconf) (l : list str) : list str :=
  match fc_extract f with
  | Some ((_ :: _) as p) => flatten_extracted (filter truthy_extracted (map (fun s => extract_using_regex sp s (re_spans p s)) l))
  | _ => l
  end.
(** T L275-276: [re_compile_or_none]; a [re.error] is shown as a RuntimeError *)
Definition compiled (s : ostr) : res ostr :=
  match s with Some ((_ :: _) as s) => if compiles s then Ok (Some s) else Err RuntimeError | _ => Ok None end.
(** T L304-327: [extract_sub_annotations]; without sub annotations [None] is shown as [] *)
Definition sub_value (regex : ostr) (s : str) : res (option tvalue) :=
  do t <- stripped s ;;
  match t with
  | [] => Ok None
  | _ =>
      do t1 <- strip_whitespace (S (2 * length t)) t ;;
      let t2 := strip sp t1 in
      match regex, t2 with
      | Some ((_ :: _) as p), _ :: _ =>
          Ok (match extract_using_regex sp t2 (re_spans p t2) with
              | One [] => None | One s => Some (VOne s) | Many [] => None | Many l => Some (VMany l) end)
      | _, [] => Ok None
      | _, _ => Ok (Some (VOne t2))
      end
  end.
Definition sub_annotations_of (e : npath) (subs : list (str * str * ostr)) : res (list (str * tvalue)) :=
  foldM (fun acc s =>
    let '(name, x, regex) := s in
    do regex <- compiled regex ;;
    do found <- xpath e x ;;
    foldM (fun acc p => do v <- sub_value regex (content p) ;;
                        Ok (match v with Some v => acc ++ [(name, v)] | None => acc end)) acc found) [] subs.
(** A L136-219: the annotations of an element *)
Definition tgt_entries (k : str) (f : fconf) (e : npath) : res (list (key * tgt)) :=
  let pos := Z.of_nat (index_of e (paths_from [] root)) in
  do excluded <- all_xpaths e (fc_ignore f) ;;
  do subs <- sub_annotations_of e (fc_subs f) ;;
  do tl <- (if uses_children f e then extract_children e f
            else Ok (truthy_only (strip_all [raw_content excluded e]), [])) ;;
  let texts := with_extract f (with_pattern f (fst tl)) in
  Ok (match text_value texts with
      | Some v => [((- fc_priority f, pos, None)%Z, mkTgt k v (fc_multiple f) (fc_bonding f) (fc_next f) subs)]
      | None => []
      end
      ++ map (fun iv => ((- fc_priority f, pos, Some (fst iv))%Z, mkTgt k (VOne (snd iv)) (fc_multiple f) (fc_bonding f) false subs))
             (indexed (snd tl))).

(* ------------------------------------------------------------------ *)
(** ** Fields *)
(** T L213-215: [parse_xpaths]; [None] and no expression are [] *)
Definition parse_xpaths (s : ostr) : list str :=
  match s with Some ((_ :: _) as s) => map (strip sp) (split_on ch_lf (strip sp s)) | _ => [] end.
(** T L255-256 *)
Definition or_default {A} (parse : str -> res (list A)) (s : ostr) : res (list A) :=
  match s with Some ((_ :: _) as s) => parse s | _ => Ok [] end.
(** A L86-133. *)
Definition opt (m : options) (k : str) (suffix : string) : ostr := dict_get (k ++ u suffix) m.
Definition flag (m : options) (k : str) (suffix : string) : bool := ostreq (opt m k suffix) (Some (u "true")).
Definition field_conf (m : options) (k : str) : res fconf :=
  do concat <- or_default json_concat (opt m k ".children.concat") ;;
  do range <- or_default json_range (opt m k ".children.range") ;;
  do regex <- compiled (opt m k ".regex") ;;
  do extract <- compiled (opt m k ".extract-regex") ;;
  do priority <- match opt m k ".priority" with Some s => to_int s | None => Ok 0%Z end ;;
  do raw <- match opt m k ".use-raw-text" with
            | Some ((_ :: _) as s) => do b <- strtobool lower s ;; Ok (Some b)
            | _ => Ok None
            end ;;
  Ok (mkFconf (parse_xpaths (dict_get k m)) (parse_xpaths (opt m k ".ignore")) (parse_xpaths (opt m k ".children"))
        concat range (flag m k ".unmatched-parent-text") regex extract priority raw
        (flag m k ".match-multiple") (flag m k ".bonding") (flag m k ".require-next")
        (map (fun kv => (fst kv, snd kv, opt m (k ++ u ".sub." ++ fst kv) ".extract-regex")) (sub_mapping m k))).
Definition field_names (m : options) : list str := filter (fun k => negb (has ch_dot k)) (map fst m).
Definition field_entries (m : options) (k : str) : res (list (key * tgt)) :=
  do f <- field_conf m k ;;
  do es <- all_xpaths [] (fc_xpaths f) ;;
  do ls <- mapM (tgt_entries k f) es ;;
  Ok (concat ls).
(** A L78-230: [xml_root_to_target_annotations]; [tag]: the name of the root element.  An
    [Exception] is shown as a RuntimeError. *)
Definition xml_targets (xm : mapping) (tag : str) : res (list tgt) :=
  match dict_get tag xm with
  | None => Err RuntimeError
  | Some m =>
      do ls <- mapM (field_entries m) (field_names m) ;;
      Ok (map snd (sort (fun a b => key_leb (fst a) (fst b)) (concat ls)))
  end.
End Targets.
