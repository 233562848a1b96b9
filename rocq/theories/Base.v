(** Common definitions: text, results, list helpers.  No modelled code. *)
From Coq Require Export String Ascii.
From Coq Require Export List NArith ZArith Bool Arith Lia.
Open Scope list_scope.
Export ListNotations.


(** Text: a list of unicode code points. *)
Definition str := list N.

(** Readable ASCII literals. *)
Definition u (s : string) : str := map N_of_ascii (list_ascii_of_string s).

Definition str_eq_dec (a b : str) : {a = b} + {a <> b} := list_eq_dec N.eq_dec a b.
Definition streq (a b : str) : bool := if str_eq_dec a b then true else false.

Lemma streq_true a b : streq a b = true <-> a = b.
Proof. unfold streq. destruct (str_eq_dec a b); split; intros; congruence. Qed.
Lemma streq_false a b : streq a b = false <-> a <> b.
Proof. unfold streq. destruct (str_eq_dec a b); split; intros; congruence. Qed.
Lemma streq_refl a : streq a a = true.
Proof. apply streq_true. reflexivity. Qed.

(** An optional text (Python [Optional[str]]). *)
Definition ostr := option str.
Definition ostr_eq_dec (a b : ostr) : {a = b} + {a <> b}.
Proof. decide equality. apply str_eq_dec. Defined.
Definition ostreq (a b : ostr) : bool := if ostr_eq_dec a b then true else false.
Lemma ostreq_true a b : ostreq a b = true <-> a = b.
Proof. unfold ostreq. destruct (ostr_eq_dec a b); split; intros; congruence. Qed.
Lemma ostreq_false a b : ostreq a b = false <-> a <> b.
Proof. unfold ostreq. destruct (ostr_eq_dec a b); split; intros; congruence. Qed.

(** Python truthiness of an [Optional[str]]: neither [None] nor [''] *)
Definition truthy (o : ostr) : bool :=
  match o with Some (_ :: _) => true | _ => false end.

(** Python [a or b] on optional strings *)
Definition oor (a b : ostr) : ostr := if truthy a then a else b.

(** membership in a list / set of texts *)
Definition mem (x : str) (l : list str) : bool := existsb (streq x) l.
Lemma mem_In x l : mem x l = true <-> In x l.
Proof.
  unfold mem. rewrite existsb_exists. split.
  - intros [y [H1 H2]]. apply streq_true in H2. subst. exact H1.
  - intros H. exists x. split; [exact H | apply streq_refl].
Qed.
Lemma mem_nIn x l : mem x l = false <-> ~ In x l.
Proof. rewrite <- mem_In. destruct (mem x l); split; intros; congruence. Qed.

Definition omem (x : ostr) (l : list str) : bool :=
  match x with Some s => mem s l | None => false end.

(** Python dictionaries with text keys as association lists; look-up of the
    (unique) binding.  Dictionaries built by insertion are normalised with
    [dict_set], which replaces in place as Python does. *)
Fixpoint dict_get {A} (k : str) (d : list (str * A)) : option A :=
  match d with
  | [] => None
  | (k', v) :: d' => if streq k k' then Some v else dict_get k d'
  end.
Fixpoint dict_set {A} (k : str) (v : A) (d : list (str * A)) : list (str * A) :=
  match d with
  | [] => [(k, v)]
  | (k', v') :: d' => if streq k k' then (k', v) :: d' else (k', v') :: dict_set k v d'
  end.

Lemma dict_get_set_same {A} k (v : A) d : dict_get k (dict_set k v d) = Some v.
Proof.
  induction d as [|[k' v'] d IH]; cbn.
  - now rewrite streq_refl.
  - destruct (streq k k') eqn:E; cbn; rewrite E; auto.
Qed.
Lemma dict_get_set_other {A} k k2 (v : A) d :
  k <> k2 -> dict_get k2 (dict_set k v d) = dict_get k2 d.
Proof.
  intros Hne. induction d as [|[k' v'] d IH]; cbn.
  - destruct (streq k2 k) eqn:E; auto. apply streq_true in E. congruence.
  - destruct (streq k k') eqn:E; cbn.
    + apply streq_true in E. subst k'.
      destruct (streq k2 k) eqn:E2; auto. apply streq_true in E2. congruence.
    + destruct (streq k2 k'); auto.
Qed.

(** Exceptions as values. *)
Inductive err :=
| ValueError | TypeError | KeyError | AssertionError | RuntimeError | IndexError
| ZeroDivisionError | AttributeError
| OutOfFuel.
Inductive res (A : Type) := Ok (a : A) | Err (e : err).
Arguments Ok {A} a.
Arguments Err {A} e.
Definition bind {A B} (m : res A) (f : A -> res B) : res B :=
  match m with Ok a => f a | Err e => Err e end.
Notation "'do' x <- m ;; k" := (bind m (fun x => k))
  (at level 200, x pattern, m at level 100, k at level 200).

Fixpoint foldM {A B} (f : B -> A -> res B) (b : B) (l : list A) : res B :=
  match l with
  | [] => Ok b
  | a :: l' => do b' <- f b a ;; foldM f b' l'
  end.

(** [starts_with p s]: Python [s.startswith(p)] *)
Fixpoint starts_with (p s : str) : bool :=
  match p, s with
  | [], _ => true
  | a :: p', b :: s' => N.eqb a b && starts_with p' s'
  | _ :: _, [] => false
  end.
Lemma starts_with_spec p s : starts_with p s = true <-> exists r, s = p ++ r.
Proof.
  revert s. induction p as [|a p IH]; intros s; cbn.
  - split; eauto.
  - destruct s as [|b s]; cbn.
    + split; [discriminate | intros [r H]; discriminate].
    + rewrite andb_true_iff, N.eqb_eq, IH. split.
      * intros [-> [r ->]]. eauto.
      * intros [r H]. inversion H. subst. eauto.
Qed.
Lemma starts_with_app p r : starts_with p (p ++ r) = true.
Proof. apply starts_with_spec. eauto. Qed.

(** Python [all]-style helper: a text consisting of white space only (or empty).
    [sp] classifies characters as Python's [str.isspace]/[str.strip] do. *)
Definition blank (sp : N -> bool) (s : str) : bool := forallb sp s.

(** ASCII classifications used in the examples *)
Definition ascii_space (c : N) : bool :=
  (N.eqb c 32 || ((9 <=? c) && (c <=? 13)))%N%bool.
Definition ascii_upper (c : N) : bool := ((65 <=? c) && (c <=? 90))%N%bool.
Definition ascii_lower (c : N) : bool := ((97 <=? c) && (c <=? 122))%N%bool.
Definition ascii_digit (c : N) : bool := ((48 <=? c) && (c <=? 57))%N%bool.
Definition ascii_alpha (c : N) : bool := ascii_upper c || ascii_lower c.
Definition ascii_word (c : N) : bool :=
  ascii_alpha c || ascii_digit c || N.eqb c 95.
