(** The short regular expressions of the code, as they are written there, and the functions that
    use them: structured_document/grobid_training_tei.py (T below) L234-259, annotation/simple_matching_annotator.py (S)
    L46-56, L454-461, annotation/segmentation_annotator.py (G) L248-249, L301-318, annotation/target_annotation.py (A) L49-56,
    auto_annotate_utils.py (U) L532-544, fix_jats_xml.py (F) L166-170, L526-536, annotation/reference_annotator.py (R) L245,
    utils/regex.py (X) L31-37.
    [re.split], [re.sub] with a function: as in Python 3.7 (ModelRegex). *)
From Verif Require Import Base ModelJoined ModelTokenize ModelSource ModelRegex ModelPatterns.
Open Scope nat_scope.

Definition piece (s : str) (i j : nat) : str := firstn (j - i) (skipn i s).

Section Short.
Variables sp wd dg : N -> bool.
Variable fold : N -> N.
Notation finditer := (re_finditer sp wd dg fold).

(** [re.match(pattern, s) is not None] *)
Definition matches (pat s : str) : bool := match re_match sp wd dg fold (compiled pat) s with Some _ => true | None => false end.
(** [re.split(pattern, s)]: what is between the matches, with the groups of the matches ([None]: not matched) *)
Fixpoint split_found (n : nat) (s : str) (pos : nat) (l : list found) : list ostr :=
  match l with
  | [] => [Some (skipn pos s)]
  | m :: l' =>
      Some (piece s pos (fo_start m)) ::
      map (fun k => option_map (fun ij => piece s (fst ij) (snd ij)) (group k m)) (seq 1 n) ++ split_found n s (fo_end m) l'
  end.
Definition re_split (pat s : str) : list ostr :=
  split_found (pt_groups (compiled pat)) s 0 (finditer (compiled pat) s).
(** [re.sub(pattern, f, s)]; the function gets the text and the match *)
Fixpoint sub_found (f : str -> found -> str) (s : str) (pos : nat) (l : list found) : str :=
  match l with
  | [] => skipn pos s
  | m :: l' => piece s pos (fo_start m) ++ f s m ++ sub_found f s (fo_end m) l'
  end.
Definition re_sub_with (pat : str) (f : str -> found -> str) (s : str) : str := sub_found f s 0 (finditer (compiled pat) s).

(** T L249-259 *)
Definition TAG_EXPRESSION_PATTERN : str := u "^([^\[]+)(\[@?([^=]+)=""(.+)""\])?$".
Definition re_tag_expression (s : str) : res (str * list (str * str)) :=
  match re_match sp wd dg fold (compiled TAG_EXPRESSION_PATTERN) s with
  | None => Err ValueError
  | Some m =>
      Ok (group_text s m 1, match group_text s m 2 with [] => [] | _ => [(group_text s m 3, group_text s m 4)] end)
  end.

(** T L234-240, S L46-56: the pieces are texts, the group is always matched *)
Definition NONWORD_PATTERN : str := u "(\W)".
Definition re_words (s : str) : list str := map (fun x => match x with Some t => t | None => [] end) (re_split NONWORD_PATTERN s).

(** G L248-249 *)
Definition re_digits_only (s : str) : bool := matches (u "^\d+$") s.
(** G L301-318, [min_count] given *)
Definition re_valid_header (text : str) (count min_count : Z) : bool :=
  if (count <? min_count)%Z then false
  else if matches (u "^(\d|\s|\.)+$") text then false
  else if length (re_split (u "\s") text) <? 2 then false else true.

(** A L49-56 *)
Definition re_ends_with_word (s : str) : bool := matches (u ".*\w$") s.
Definition re_starts_with_word (s : str) : bool := matches (u "^\w.*") s.

(** U L532-544: the loop over the namespaces; [None]: an error *)
Definition re_resolve_namespace (namespaces : list (str * str)) (expr : str) : parsed str :=
  fold_left (fun e n => match e with Parsed e => re_sub sp wd dg fold (u "\b" ++ re_escape (fst n) ++ u ":") (u "{" ++ snd n ++ u "}") e | x => x end)
    namespaces (Parsed expr).

(** S L454-461 *)
Definition PLACEHOLDER_PATTERN : str := u "{([^}]+)}".
Definition re_resolve_placeholders (pattern : str) (ph : list (str * str)) : str :=
  re_sub_with PLACEHOLDER_PATTERN
    (fun s m => re_escape (match dict_get (group_text s m 1) ph with Some v => v | None => u "NOT_FOUND" end)) pattern.

(** F L166-170 *)
Definition re_no_space (s : str) : str := re_sub_with (u "\s") (fun _ _ => []) s.
(** F L526-536 *)
Definition URL_START_PATTERN : str := u "https?://".
Fixpoint urls (url : str) (pos : nat) (l : list found) : list str :=
  match l with
  | [] => if pos <? length url then [skipn pos url] else []
  | m :: l' => (if pos <? fo_start m then [piece url pos (fo_start m)] else []) ++ urls url (fo_start m) l'
  end.
Definition re_split_url (url : str) : list str := urls url 0 (finditer (compiled URL_START_PATTERN) url).

(** R L245: [re.search(r'^\.', text)]: the end of the match *)
Definition re_dot_end (s : str) : option nat := option_map fo_end (re_search sp wd dg fold (compiled (u "^\.")) s).

(** X L31-37: what is not supported by ModelRegex is an error, too *)
Definition re_sub_or_error (pat template s : str) : res str :=
  match re_sub sp wd dg fold pat template s with Parsed t => Ok t | BadPattern => Err ValueError | Unsupported => Err RuntimeError end.
Definition re_change_name (name pattern : str) : res str := regex_change_name re_sub_or_error name pattern.
End Short.
