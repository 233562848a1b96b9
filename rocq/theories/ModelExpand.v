(** Model of annotation/expand_to_untagged_lines_annotator.py. *)
From Verif Require Import Base ModelTags ModelTei ModelTeiDoc.

(** tokens with the lines taken apart and put together again *)
Fixpoint reshape (ns : list nat) (l : list tok) : doc :=
  match ns with [] => [] | n :: ns' => firstn n l :: reshape ns' (skipn n l) end.
Definition through_tokens (f : list tok -> list tok) (d : doc) : doc := reshape (map (@length tok) d) (f (concat d)).

Section Expand.
Variable sp : N -> bool.
Variable enabled : list str.

(** L58-62: the pending tokens get the tag, the first one with the begin prefix;
    [iter_all_tokens_excluding_space] skips spaces *)
Fixpoint tag_pending (v : str) (first : bool) (pending : list tok) : list tok :=
  match pending with
  | [] => []
  | t :: l =>
      if is_space sp t then t :: tag_pending v first l
      else set_tag_only LMain (add_tag_prefix (Some v) (Some (if first then u "b-" else u "i-"))) t :: tag_pending v false l
  end.
(** L38-69: [ExpandToPreviousUntaggedLinesPostProcessingAnnotator.annotate].  [pending]:
    the tokens since the last tagged one, with the spaces (that are ignored).
    A token is only written once it and all earlier ones are read. *)
Fixpoint expand_previous (pending l : list tok) : list tok :=
  match l with
  | [] => pending
  | t :: l' =>
      if is_space sp t then expand_previous (pending ++ [t]) l'
      else
        match tag_or_preserved_value LMain t with
        | None | Some [] => expand_previous (pending ++ [t]) l'
        | Some v =>
            if negb (existsb (fun x => negb (is_space sp x)) pending) then pending ++ t :: expand_previous [] l'
            else if negb (mem v enabled) then pending ++ t :: expand_previous [] l'
            else tag_pending v true pending
                   ++ set_tag_only LMain (add_tag_prefix (Some v) (Some (u "i-"))) t :: expand_previous [] l'
        end
  end.
Definition annotate_previous : doc -> doc := through_tokens (expand_previous []).

(** L89-121: [ExpandToFollowingUntaggedLinesPostProcessingAnnotator.annotate] *)
Fixpoint expand_following (previous : ostr) (l : list tok) : list tok :=
  match l with
  | [] => []
  | t :: l' =>
      if is_space sp t then t :: expand_following previous l'
      else
        match tag_or_preserved_value LMain t with
        | None | Some [] =>
            match previous with
            | None | Some [] => t :: expand_following previous l'
            | Some v => set_tag_only LMain (add_tag_prefix (Some v) (Some (u "i-"))) t :: expand_following previous l'
            end
        | Some v => t :: expand_following (if mem v enabled then Some v else None) l'
        end
  end.
Definition annotate_following : doc -> doc := through_tokens (expand_following None).
End Expand.
