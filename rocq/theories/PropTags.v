(** C01: tag prefixes. *)
From Verif Require Import Base ModelTags ProofTags.

(** A tag put together from a begin / inside prefix and a non-empty value is
    split into exactly these two. *)
Theorem C01_split_of_prefixed :
  forall v p, v <> [] -> p = B_PREFIX \/ p = I_PREFIX ->
  split_tag_prefix (add_tag_prefix (Some v) (Some p)) = (Some p, Some v).
Proof.
  intros v p Hv [-> | ->]; [exact (split_add_b v Hv) | exact (split_add_i v Hv)].
Qed.
Example C01_split_of_prefixed_ex :
  split_tag_prefix (add_tag_prefix (Some (u "title")) (Some B_PREFIX)) = (Some (u "b-"), Some (u "title")).
Proof. reflexivity. Qed.

(** Splitting and joining is the identity on every tag (and on no tag),
    except on the two tags that consist of a prefix only. *)
Theorem C01_join_of_split :
  forall t, t <> Some (u "b-") -> t <> Some (u "i-") ->
  add_tag_prefix (snd (split_tag_prefix t)) (fst (split_tag_prefix t)) = t.
Proof. exact split_join. Qed.
Example C01_join_of_split_ex :
  Some (u "i-b-x") <> Some (u "b-") /\
  split_tag_prefix (Some (u "i-b-x")) = (Some (u "i-"), Some (u "b-x")).
Proof. split; [discriminate | reflexivity]. Qed.

(** The exception is real: the bare prefix does not survive. *)
Theorem C01_join_of_split_refuted :
  exists t, add_tag_prefix (snd (split_tag_prefix t)) (fst (split_tag_prefix t)) <> t.
Proof. exists (Some (u "b-")). vm_compute. discriminate. Qed.

(** The prefix found is None, 'b-' or 'i-', the value is what follows it, and a
    tag without a prefix does not begin with one. *)
Theorem C01_split_shape :
  forall t,
    (exists v, t = Some (u "b-" ++ v) /\ split_tag_prefix t = (Some (u "b-"), Some v)) \/
    (exists v, t = Some (u "i-" ++ v) /\ split_tag_prefix t = (Some (u "i-"), Some v)) \/
    (split_tag_prefix t = (None, t) /\
     forall v, t <> Some (u "b-" ++ v) /\ t <> Some (u "i-" ++ v)).
Proof. exact split_cases. Qed.

(** No tag stays no tag, and no prefix leaves the tag as it is. *)
Theorem C01_nothing_added : forall t p,
  t = None \/ t = Some [] \/ p = None \/ p = Some [] -> add_tag_prefix t p = t.
Proof. intros t p H. destruct t as [[|]|], p as [[|]|]; try reflexivity; destruct H as [H|[H|[H|H]]]; discriminate. Qed.
Example C01_nothing_added_ex : add_tag_prefix None (Some B_PREFIX) = None /\ add_tag_prefix (Some (u "title")) None = Some (u "title").
Proof. split; reflexivity. Qed.

(** Changing the prefix of a tag keeps its value. *)
Theorem C01_value_kept : forall t p, p = B_PREFIX \/ p = I_PREFIX ->
  strip_tag_prefix (add_tag_prefix (strip_tag_prefix t) (Some p)) = strip_tag_prefix t.
Proof.
  intros t p Hp. destruct (strip_tag_prefix t) as [[|c v]|]; [destruct Hp as [-> | ->]; reflexivity| |destruct Hp as [-> | ->]; reflexivity].
  unfold strip_tag_prefix. rewrite C01_split_of_prefixed; [reflexivity|discriminate|exact Hp].
Qed.
Example C01_value_kept_ex : add_tag_prefix (strip_tag_prefix (Some (u "b-title"))) (Some I_PREFIX) = Some (u "i-title").
Proof. reflexivity. Qed.

Print Assumptions C01_nothing_added.
Print Assumptions C01_value_kept.
Print Assumptions C01_split_of_prefixed.
Print Assumptions C01_join_of_split.
Print Assumptions C01_join_of_split_refuted.
Print Assumptions C01_split_shape.
