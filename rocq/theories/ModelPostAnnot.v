(** Models of the post processing annotators
    annotation/merge_group_tags_annotator.py and annotation/replace_tags_annotator.py
    (for documents whose lines do not share tokens, see [remove_all_untagged]) *)
From Verif Require Import Base ModelTags ModelTei ModelTeiDoc.

Section Post.
Variable sp : N -> bool.

(** merge_group_tags_annotator.py L40-69: [annotate], one token.  [cur] is
    [current_group_tag].  [tag_level] None is [LMain].  The loop runs over
    [iter_all_tokens_excluding_space] (structured_document/utils.py L11-18):
    blank tokens are skipped. *)
Definition merge_group_step (group : str -> ostr) (lv : level) (cur : ostr) (t : tok) : ostr * tok :=
  if is_space sp t then (cur, t)
  else if match lv with LMain => false | LSub => negb (truthy (tag_or_preserved LMain t)) end
  then (cur, t)
  else
    match tag_or_preserved_value lv t with
    | Some ((_ :: _) as v) => (group v, t)
    | _ => if truthy cur then (cur, set_tag_only lv (add_tag_prefix cur (Some I_PREFIX)) t)
           else (cur, t)
    end.

(** state threaded through a list / through the lines *)
Fixpoint map_state {S A} (f : S -> A -> S * A) (s : S) (l : list A) : S * list A :=
  match l with
  | [] => (s, [])
  | a :: l' => let (s1, a') := f s a in let (s2, l'') := map_state f s1 l' in (s2, a' :: l'')
  end.
Definition merge_group (group : str -> ostr) (lv : level) (d : doc) : doc :=
  snd (map_state (map_state (merge_group_step group lv)) None d).

(** replace_tags_annotator.py L37-52: [annotate].  Every assignment only affects
    its line, so the lines are processed one by one; tokens in order. *)
Definition replace_at (m : list (str * ostr)) (l : line) (j : nat) : line :=
  match nth_error l j with
  | None => l
  | Some t =>
      if is_space sp t then l
      else
        let (prefix, v) := split_tag_prefix (tag_or_preserved LMain t) in
        match v with
        | Some ((_ :: _) as s) =>
            match dict_get s m with
            | Some new => set_tag_line sp LMain j (add_tag_prefix new prefix) l
            | None => l
            end
        | _ => l
        end
  end.
Definition replace_tags_line (m : list (str * ostr)) (l : line) : line :=
  fold_left (replace_at m) (seq 0 (length l)) l.
Definition replace_tags (m : list (str * ostr)) (d : doc) : doc :=
  map (replace_tags_line m) d.
End Post.
