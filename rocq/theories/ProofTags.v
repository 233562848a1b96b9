From Verif Require Import Base ModelTags.

Lemma split_add_b v : v <> [] -> split_tag_prefix (add_tag_prefix (Some v) (Some B_PREFIX)) = (Some B_PREFIX, Some v).
Proof. destruct v; [congruence|]. intros _. reflexivity. Qed.
Lemma split_add_i v : v <> [] -> split_tag_prefix (add_tag_prefix (Some v) (Some I_PREFIX)) = (Some I_PREFIX, Some v).
Proof. destruct v; [congruence|]. intros _. reflexivity. Qed.

Lemma split_cases t :
  (exists v, t = Some (B_PREFIX ++ v) /\ split_tag_prefix t = (Some B_PREFIX, Some v)) \/
  (exists v, t = Some (I_PREFIX ++ v) /\ split_tag_prefix t = (Some I_PREFIX, Some v)) \/
  (split_tag_prefix t = (None, t) /\
   forall v, t <> Some (B_PREFIX ++ v) /\ t <> Some (I_PREFIX ++ v)).
Proof.
  destruct t as [[|c s]|]; cbn [split_tag_prefix].
  - right; right; split; [reflexivity|]. intros v; split; discriminate.
  - destruct (starts_with B_PREFIX (c :: s)) eqn:EB.
    + left. apply starts_with_spec in EB as [r E]. exists r.
      rewrite E. split; reflexivity.
    + destruct (starts_with I_PREFIX (c :: s)) eqn:EI.
      * right; left. apply starts_with_spec in EI as [r E]. exists r.
        rewrite E. split; reflexivity.
      * right; right. split; [reflexivity|]. intros v; split; intros H;
          [assert (E : c :: s = B_PREFIX ++ v) by congruence; rewrite E in EB
          |assert (E : c :: s = I_PREFIX ++ v) by congruence; rewrite E in EI];
          now rewrite starts_with_app in *.
  - right; right; split; [reflexivity|]. intros v; split; discriminate.
Qed.

Lemma split_join t :
  t <> Some B_PREFIX -> t <> Some I_PREFIX ->
  add_tag_prefix (snd (split_tag_prefix t)) (fst (split_tag_prefix t)) = t.
Proof.
  intros HB HI.
  destruct (split_cases t) as [(v & -> & ->)|[(v & -> & ->)|[-> _]]]; cbn [fst snd].
  - destruct v; [|reflexivity]. exfalso; apply HB; reflexivity.
  - destruct v; [|reflexivity]. exfalso; apply HI; reflexivity.
  - reflexivity.
Qed.

Lemma strip_add_i v : strip_tag_prefix (add_tag_prefix (strip_tag_prefix v) (Some I_PREFIX)) =
  match strip_tag_prefix v with Some [] => Some [] | o => o end.
Proof.
  destruct (strip_tag_prefix v) as [[|c s]|]; try reflexivity.
Qed.
