(** Model of the configuration of the simple matcher per tag:
    annotation/simple_matching_annotator.py L756-836. *)
From Verif Require Import Base ModelFuzzyMatch ModelTarget ModelMapping ModelSimpleMatch.
Open Scope list_scope.
Open Scope nat_scope.

(** [distutils.util.strtobool] after [val.lower()] *)
Definition true_words : list str := [u "y"; u "yes"; u "t"; u "true"; u "on"; u "1"].
Definition false_words : list str := [u "n"; u "no"; u "f"; u "false"; u "off"; u "0"].

Section TagConfigs.
Variable sp lb : N -> bool.             (* str.isspace; line boundaries of str.splitlines *)
Variable lower : str -> str.            (* str.lower *)
Variable compiles : str -> bool.        (* re.compile does not raise *)
Variable parse_int : str -> option Z.   (* int(s); [None]: ValueError *)

Definition strtobool (s : str) : res bool :=
  if mem (lower s) true_words then Ok true else if mem (lower s) false_words then Ok false else Err ValueError.
(** L765-774: [parse_regex].  [re.error] is not one of the modelled exceptions; it is
    shown as a RuntimeError. *)
Definition QUOTE : N := 34%N.
Definition quoted (s : str) : bool :=
  Nat.leb 2 (length s) && match s with c :: _ => N.eqb c QUOTE | [] => false end
  && match rev s with c :: _ => N.eqb c QUOTE | [] => false end.
Definition parse_regex (s : ostr) : res ostr :=
  match s with
  | None => Ok None
  | Some [] => Ok (Some [])
  | Some r =>
      let r' := if quoted r then removelast (tl r) else r in
      if compiles r' then Ok (Some r') else Err RuntimeError
  end.
(** L793-816: [get_simple_tag_config].  [str(True)], [str(1)]: the defaults.  A negative
    number of chunks is taken as 0: fewer than two chunks means one. *)
Definition option_key (field prop : str) : str := field ++ ch_dot :: prop.
Definition tag_config_of (m : options) (field : str) : res tag_config :=
  let get prop := dict_get (option_key field (u prop)) m in
  do regex <- parse_regex (get "match-prefix-regex"%string) ;;
  do spellings <- match get "alternative-spellings"%string with
                  | None | Some [] => Ok []
                  | Some s => parse_alternative_spellings sp lb s
                  end ;;
  do merge <- strtobool (match get "merge"%string with Some s => s | None => u "True" end) ;;
  do extend <- strtobool (match get "extend-to-line"%string with Some s => s | None => u "True" end) ;;
  do chunks <- match parse_int (match get "max_chunks"%string with Some s => s | None => u "1" end) with
               | Some n => Ok n | None => Err ValueError end ;;
  Ok (mkTagConfig regex spellings merge extend (Z.to_nat chunks) (get "block"%string)).
(** L819-836: [get_simple_tag_config_map]; [set_order]: the order in which a set is
    iterated over *)
Definition all_options (m : mapping) : options := flat_map snd m.
Definition flat_config (m : mapping) : options := dict_update [] (all_options m).
Definition config_fields (m : mapping) : list str := filter (fun f => negb (has ch_dot f)) (map fst (all_options m)).
Definition tag_config_map (set_order : list str -> list str) (m : mapping) : res (list (str * tag_config)) :=
  foldM (fun d f => do c <- tag_config_of (flat_config m) f ;; Ok (dict_set f c d)) [] (set_order (config_fields m)).
End TagConfigs.
