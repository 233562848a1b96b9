(** Model of the tokeniser in
    sciencebeam_trainer_grobid_tools/structured_document/grobid_training_tei.py.
    [wd], [up], [lo] classify characters as regex [\w], [str.isupper] and
    [str.islower] do; all theorems hold for every classification. *)
From Verif Require Import Base.

Section Tokenize.
Variables wd up lo : N -> bool.

(** grobid_training_tei.py L224-231: [_iter_split_lower_to_upper_case].
    [cur] is text[start:index] reversed, [prev] is text[index - 1] (None at
    index 0).  The list of yielded strings. *)
Fixpoint split_lower_upper_go (prev : option N) (cur : str) (text : str) : list str :=
  match text with
  | [] => match cur with [] => [] | _ => [rev cur] end
  | c :: text' =>
      if match prev with Some p => up c && lo p | None => false end
      then rev cur :: split_lower_upper_go (Some c) [c] text'
      else split_lower_upper_go (Some c) (c :: cur) text'
  end.
Definition split_lower_upper (text : str) : list str := split_lower_upper_go None [] text.

(** grobid_training_tei.py L237: [regex.split(r'(\W)', text)]: the pieces
    between non-word characters, alternating with these characters. *)
Fixpoint split_nonword_go (cur : str) (text : str) : list str :=
  match text with
  | [] => [rev cur]
  | c :: text' =>
      if wd c then split_nonword_go (c :: cur) text'
      else rev cur :: [c] :: split_nonword_go [] text'
  end.
Definition split_nonword (text : str) : list str := split_nonword_go [] text.

(** grobid_training_tei.py L234-240: [_tokenize_text] *)
Definition tokenize_text (text : str) : list str :=
  filter (fun s => match s with [] => false | _ => true end)
    (flat_map split_lower_upper (split_nonword text)).
End Tokenize.
