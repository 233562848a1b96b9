(** C02: tokenisation is lossless and splits exactly where it should. *)
From Verif Require Import Base ModelTokenize ProofTokenize.

(** Specification.  [wd], [up], [lo] : word / upper / lower case character.
    Two neighbouring characters stay together iff both are word characters and
    they are not a lower case letter followed by an upper case letter. *)
Definition together (wd up lo : N -> bool) (a b : N) : Prop :=
  wd a = true /\ wd b = true /\ ~ (lo a = true /\ up b = true).

(** positions inside a token / between two consecutive tokens *)
Definition inside_of (tokens : list str) (a b : N) : Prop :=
  exists t x y, In t tokens /\ t = x ++ a :: b :: y.
Definition between (tokens : list str) (a b : N) : Prop :=
  exists l1 l2 x y, tokens = l1 ++ (x ++ [a]) :: (b :: y) :: l2.

Theorem C02_concat : forall wd up lo text,
  concat (tokenize_text wd up lo text) = text.
Proof. intros. rewrite tokenize_glue. apply glue_concat. Qed.

Theorem C02_nonempty : forall wd up lo text t,
  In t (tokenize_text wd up lo text) -> t <> [].
Proof.
  intros wd up lo text. rewrite tokenize_glue.
  apply Forall_forall. apply glue_nonempty.
Qed.

Lemma same_token_together wd up lo a b :
  same_token wd up lo a b = true <-> together wd up lo a b.
Proof.
  unfold same_token, together.
  destruct (wd a), (wd b), (lo a), (up b); cbn; intuition congruence.
Qed.

Lemma run_inside wd up lo x a b y : run wd up lo (x ++ a :: b :: y) -> same_token wd up lo a b = true.
Proof.
  induction x as [|c x IH]; cbn [app run]; [tauto|].
  destruct (x ++ a :: b :: y) eqn:E; [destruct x; discriminate|]. tauto.
Qed.

Lemma boundaries_between wd up lo l1 : forall x a b y l2,
  boundaries wd up lo (l1 ++ (x ++ [a]) :: (b :: y) :: l2) -> same_token wd up lo a b = false.
Proof.
  induction l1 as [|c l1 IH]; intros x a b y l2; cbn [app boundaries].
  - rewrite last_last. cbn. tauto.
  - destruct (l1 ++ (x ++ [a]) :: (b :: y) :: l2) eqn:E; [destruct l1; discriminate|].
    intros [_ H]. rewrite <- E in H. eapply IH. exact H.
Qed.

Theorem C02_inside : forall wd up lo text a b,
  inside_of (tokenize_text wd up lo text) a b -> together wd up lo a b.
Proof.
  intros wd up lo text a b (t & x & y & Hin & ->).
  apply same_token_together. rewrite tokenize_glue in Hin.
  pose proof (glue_run_all wd up lo text) as H. rewrite Forall_forall in H.
  eapply run_inside. apply H. exact Hin.
Qed.

Theorem C02_between : forall wd up lo text a b,
  between (tokenize_text wd up lo text) a b -> ~ together wd up lo a b.
Proof.
  intros wd up lo text a b (l1 & l2 & x & y & E) H.
  apply same_token_together in H. rewrite tokenize_glue in E.
  pose proof (glue_boundaries wd up lo text) as HB. rewrite E in HB.
  apply boundaries_between in HB. congruence.
Qed.

Example C02_ex :
  tokenize_text ascii_word ascii_upper ascii_lower (u "Smith, JohnPaul 12.5A")
  = map u ["Smith"; ","; " "; "John"; "Paul"; " "; "12"; "."; "5A"]%string.
Proof. vm_compute. reflexivity. Qed.
Example C02_ex_inside :
  inside_of (tokenize_text ascii_word ascii_upper ascii_lower (u "aB c5D")) 53 68
  /\ between (tokenize_text ascii_word ascii_upper ascii_lower (u "aB c5D")) 97 66.
Proof.
  vm_compute. split.
  - exists [99; 53; 68]%N, [99]%N, []. cbn. tauto.
  - exists [], [[32]; [99; 53; 68]]%N, [], []. reflexivity.
Qed.

Print Assumptions C02_concat.
Print Assumptions C02_nonempty.
Print Assumptions C02_inside.
Print Assumptions C02_between.
