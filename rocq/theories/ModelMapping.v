(** Model of the argument and mapping helpers: utils/string.py (S below),
    auto_annotate_utils.py (U), core/annotation/target_annotation.py (T) and
    annotation/simple_matching_annotator.py (M). *)
From Verif Require Import Base ModelTarget.

Definition ch_dot : N := 46%N.
Definition ch_comma : N := 44%N.
Definition ch_eq : N := 61%N.
Definition ch_bar : N := 124%N.
Definition ch_plus : N := 43%N.
Definition ch_minus : N := 45%N.

(** [s.split(d)] for a single character *)
Fixpoint split_on (d : N) (s : str) : list str :=
  match s with
  | [] => [[]]
  | c :: s' =>
      if N.eqb c d then [] :: split_on d s'
      else match split_on d s' with h :: t => (c :: h) :: t | [] => [[c]] end
  end.
(** [s.split(d, maxsplit=1)]: [None] if there is only one part *)
Fixpoint cut (d : N) (s : str) : option (str * str) :=
  match s with
  | [] => None
  | c :: s' =>
      if N.eqb c d then Some ([], s')
      else match cut d s' with Some (a, b) => Some (c :: a, b) | None => None end
  end.
Definition has (c : N) (s : str) : bool := existsb (N.eqb c) s.

Section Strings.
Variable sp : N -> bool. (* str.isspace *)
Variable lb : N -> bool. (* line boundaries of str.splitlines *)
Notation strip := (strip sp).

(** S L17-21: [comma_separated_str_to_list] *)
Definition comma_list (s : str) : list str :=
  match strip s with [] => [] | s' => map strip (split_on ch_comma s') end.

(** S L24-44: [plus_minus_comma_separated_str_to_list]; [list.remove] removes the first
    occurrence or raises ValueError *)
Fixpoint list_remove (x : str) (l : list str) : res (list str) :=
  match l with
  | [] => Err ValueError
  | y :: l' => if streq y x then Ok l' else do r <- list_remove x l' ;; Ok (y :: r)
  end.
Definition plus_or_minus (c : N) : bool := N.eqb c ch_plus || N.eqb c ch_minus.
Definition pm_step (st : option N * list str) (item : str) : res (option N * list str) :=
  let (mode, result) := st in
  match item with
  | [] => Ok st
  | c :: rest =>
      let mode' := if plus_or_minus c then Some c else mode in
      let value := if plus_or_minus c then rest else item in
      let result := if match mode' with Some m => N.eqb m ch_plus | None => false end then result ++ [value] else result in
      do result <- (if match mode' with Some m => N.eqb m ch_minus | None => false end
                    then list_remove value result else Ok result) ;;
      Ok (mode', result)
  end.
Definition plus_minus_list (s : str) (default : list str) : res (list str) :=
  let user_list := comma_list s in
  match user_list with
  | (c :: _) :: _ =>
      if plus_or_minus c then do st <- foldM pm_step (None, default) user_list ;; Ok (snd st)
      else Ok user_list
  | _ => Ok user_list
  end.

(** S L63-79: [parse_key_value], [parse_dict] with its default delimiter *)
Definition parse_key_value (expr : str) : res (str * str) :=
  match cut ch_eq expr with Some (k, v) => Ok (strip k, strip v) | None => Err ValueError end.
Definition parse_dict (expr : str) : res (list (str * str)) :=
  match expr with
  | [] => Ok []
  | _ => foldM (fun d fragment => do kv <- parse_key_value fragment ;; Ok (dict_set (fst kv) (snd kv) d))
           [] (split_on ch_bar expr)
  end.

(** M L777-790: [parse_alternative_spellings].  Every line boundary character ends a
    line: CR LF gives one more empty line than in Python; empty lines are skipped. *)
Fixpoint split_lines (s : str) : list str :=
  match s with
  | [] => [[]]
  | c :: s' =>
      if lb c then [] :: split_lines s'
      else match split_lines s' with h :: t => (c :: h) :: t | [] => [[c]] end
  end.
Definition parse_alternative_spellings (s : str) : res (list (str * list str)) :=
  foldM (fun d line =>
    match strip line with
    | [] => Ok d
    | line => match cut ch_eq line with
              | None => Err ValueError
              | Some (k, v) => Ok (dict_set (strip k) (split_on ch_comma (strip v)) d)
              end
    end) [] (split_lines s).
End Strings.

(** A mapping: sections, each with its options in order. *)
Definition options := list (str * str).
Definition mapping := list (str * options).

(** U L334-335 *)
Definition field_name (key : str) : str := match cut ch_dot key with Some (a, _) => a | None => key end.
(** U L338-343 *)
Definition sub_field_of (key : str) : option str :=
  let prefix := field_name key ++ u ".sub" ++ u "." in
  if starts_with prefix key then Some (skipn (length prefix) key) else None.
(** U L346-352 *)
Definition sub_selected (sub_fields : list str) (key : str) : bool :=
  match sub_field_of key with Some (c :: f) => mem (c :: f) sub_fields | _ => true end.
Definition filter_options (keep : str -> bool) (m : mapping) : mapping :=
  map (fun sec => (fst sec, filter (fun kv => keep (fst kv)) (snd sec))) m.
(** U L355-368; sets as lists; [None] and the empty set are [] *)
Definition filter_sub_fields (m : mapping) (sub_fields : list str) : mapping :=
  match sub_fields with [] => m | _ => filter_options (sub_selected sub_fields) m end.
(** U L371-397 *)
Definition filtered_mapping_and_fields (m : mapping) (fields sub_fields : list str) : mapping * list str :=
  let m' := match fields with [] => m | _ => filter_options (fun k => mem (field_name k) fields) m end in
  let result_fields := match fields with
    | [] => flat_map (fun sec => filter (fun k => negb (has ch_dot k)) (map fst (snd sec))) m
    | _ => fields end in
  (filter_sub_fields m' sub_fields, result_fields).
(** U L400-411: [{**field_mapping, **overrides}] *)
Definition dict_update {A} (d e : list (str * A)) : list (str * A) :=
  fold_left (fun d kv => dict_set (fst kv) (snd kv) d) e d.
Definition mapping_with_overrides (m : mapping) (overrides : options) : mapping :=
  match overrides with [] => m | _ => map (fun sec => (fst sec, dict_update (snd sec) overrides)) m end.
(** T L259-272: [get_prefixed_dict_values], [get_sub_mapping] *)
Definition prefixed_values (m : options) (prefix : str) : options :=
  flat_map (fun kv => if starts_with prefix (fst kv) then [(skipn (length prefix) (fst kv), snd kv)] else []) m.
Definition sub_mapping (m : options) (tag : str) : options :=
  filter (fun kv => negb (has ch_dot (fst kv))) (prefixed_values m (tag ++ u ".sub" ++ u ".")).
