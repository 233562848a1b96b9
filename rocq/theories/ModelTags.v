(** Model of the tag helpers in
    sciencebeam_trainer_grobid_tools/core/structured_document/__init__.py *)
From Verif Require Import Base.

(** core/structured_document/__init__.py L5-6: [B_TAG_PREFIX], [I_TAG_PREFIX] *)
Definition B_PREFIX : str := u "b-".
Definition I_PREFIX : str := u "i-".

(** core/structured_document/__init__.py L49-55: [split_tag_prefix] *)
Definition split_tag_prefix (tag : ostr) : ostr * ostr :=
  match tag with
  | Some ((_ :: _) as t) =>
      if starts_with B_PREFIX t then (Some B_PREFIX, Some (skipn (length B_PREFIX) t))
      else if starts_with I_PREFIX t then (Some I_PREFIX, Some (skipn (length I_PREFIX) t))
      else (None, Some t)
  | _ => (None, tag)
  end.

(** core/structured_document/__init__.py L58-59: [strip_tag_prefix] *)
Definition strip_tag_prefix (tag : ostr) : ostr := snd (split_tag_prefix tag).

(** core/structured_document/__init__.py L62-63: [add_tag_prefix] *)
Definition add_tag_prefix (tag prefix : ostr) : ostr :=
  match prefix, tag with
  | Some ((_ :: _) as p), Some ((_ :: _) as t) => Some (p ++ t)
  | _, _ => tag
  end.

(** the test [prefix == B_TAG_PREFIX] that occurs throughout the code *)
Definition is_b (prefix : ostr) : bool := ostreq prefix (Some B_PREFIX).
