(** C129: regular expressions are read as their grammar says. *)
From Verif Require Import Base ModelRegex.
Open Scope list_scope.
Open Scope nat_scope.

(* ---------------------------------------------------------------- *)
(** ** The grammar *)
Definition letter (c : N) : Prop := (65 <= c <= 90 \/ 97 <= c <= 122)%N.
Definition digit (c : N) : Prop := (48 <= c <= 57)%N.
(** classes of characters: d, D, s, S, w, W *)
Definition classes : list (N * (kind * bool)) :=
  [(100, (KDigit, false)); (68, (KDigit, true)); (115, (KSpace, false)); (83, (KSpace, true)); (119, (KWord, false)); (87, (KWord, true))]%N.
(** control characters: n, t, r, f, v, a *)
Definition controls : list (N * N) := [(110, 10); (116, 9); (114, 13); (102, 12); (118, 11); (97, 7)]%N.

(** what a character after a backslash stands for, outside and inside of a set *)
Inductive Escape : N -> re -> Prop :=
| esc_class c k neg : In (c, (k, neg)) classes -> Escape c (RChar false [IKind k neg])
| esc_control c x : In (c, x) controls -> Escape c (RChar false [ILit x])
| esc_boundary : Escape 98 (RBound false)
| esc_no_boundary : Escape 66 (RBound true)
| esc_start : Escape 65 RStart
| esc_itself c : ~ letter c -> ~ digit c -> Escape c (RChar false [ILit c]).
Inductive SetEscape : N -> item -> Prop :=
| set_class c k neg : In (c, (k, neg)) classes -> SetEscape c (IKind k neg)
| set_control c x : In (c, x) controls -> SetEscape c (ILit x)
| set_backspace : SetEscape 98 (ILit 8)
| set_itself c : ~ letter c -> ~ digit c -> SetEscape c (ILit c).

(** one member of a set, and the members up to the closing bracket, which may itself be the first *)
Inductive Member : str -> item -> Prop :=
| member_char c : c <> 92%N -> Member [c] (ILit c)
| member_escape c i : SetEscape c i -> Member [92%N; c] i.
Definition starts (c : N) (s : str) : Prop := exists r, s = c :: r.
Inductive Members : bool -> str -> list item -> Prop :=
| members_none : Members false [] []
| members_one first m i t l : Member m i -> (first = false -> ~ starts 93 m) -> ~ (exists d r, t = 45%N :: d :: r) ->
    Members false t l -> Members first (m ++ t) (i :: l)
| members_range first m a m' b t l : Member m (ILit a) -> (first = false -> ~ starts 93 m) -> Member m' (ILit b) -> ~ starts 93 m' ->
    (a <= b)%N -> Members false t l -> Members first (m ++ [45%N] ++ m' ++ t) (IRange a b :: l).

(** bounds of a repetition *)
Definition number (d : str) : nat := fold_left (fun a c => 10 * a + N.to_nat (c - 48)) d 0.
Definition number_or {A} (none : A) (some : nat -> A) (d : str) : A := match d with [] => none | _ => some (number d) end.
Inductive Bounds : str -> nat -> option nat -> Prop :=
| bounds_star : Bounds (u "*") 0 None
| bounds_plus : Bounds (u "+") 1 None
| bounds_option : Bounds (u "?") 0 (Some 1)
| bounds_exact d : Forall digit d -> d <> [] -> Bounds (u "{" ++ d ++ u "}") (number d) (Some (number d))
| bounds_between d d' : Forall digit d -> Forall digit d' ->
    Bounds (u "{" ++ d ++ u "," ++ d' ++ u "}") (number_or 0 (fun n => n) d) (number_or None Some d').
Definition no_bounds (s : str) : Prop := forall b r lo hi, s = b ++ r -> ~ Bounds b lo hi.
(** what may be repeated *)
Definition may_repeat (a : re) : Prop := match a with RStart | REnd | RBound _ => False | _ => True end.
Inductive Suffix : str -> re -> re -> Prop :=
| suffix_none a : Suffix [] a a
| suffix_greedy b lo hi a : Bounds b lo hi -> may_repeat a -> (forall h, hi = Some h -> lo <= h) -> Suffix b a (RRep true lo hi a)
| suffix_lazy b lo hi a : Bounds b lo hi -> may_repeat a -> (forall h, hi = Some h -> lo <= h) -> Suffix (b ++ u "?") a (RRep false lo hi a).

(** [Alt n t rest a n']: with [n] groups before it, the text [t], followed by [rest], is the
    expression [a], and there are [n'] groups then *)
Inductive Alt : nat -> str -> str -> re -> nat -> Prop :=
| alt_one n t rest a n1 : Seq n t rest a n1 -> ~ starts 124 rest -> Alt n t rest a n1
| alt_more n t t' rest a b n1 n2 : Seq n t (u "|" ++ t' ++ rest) a n1 -> Alt n1 t' rest b n2 -> Alt n (t ++ u "|" ++ t') rest (RAlt a b) n2
with Seq : nat -> str -> str -> re -> nat -> Prop :=
| seq_end n rest : rest = [] \/ starts 124 rest \/ starts 41 rest -> Seq n [] rest REmpty n
| seq_more n t s t' rest a a' b n1 n2 : Atom n t (s ++ t' ++ rest) a n1 -> Suffix s a a' -> no_bounds (t' ++ rest) ->
    Seq n1 t' rest b n2 -> Seq n (t ++ s ++ t') rest (RSeq a' b) n2
with Atom : nat -> str -> str -> re -> nat -> Prop :=
| atom_group n t rest a n1 : Alt (S n) t (u ")" ++ rest) a n1 -> Atom n (u "(" ++ t ++ u ")") rest (RGroup (S n) a) n1
| atom_plain n t rest a n1 : Alt n t (u ")" ++ rest) a n1 -> Atom n (u "(?:" ++ t ++ u ")") rest a n1
| atom_set n t l rest : Members true t l -> ~ starts 94 t -> Atom n (u "[" ++ t ++ u "]") rest (RChar false l) n
| atom_not n t l rest : Members true t l -> Atom n (u "[^" ++ t ++ u "]") rest (RChar true l) n
| atom_any n rest : Atom n (u ".") rest (RChar true [ILit 10%N]) n
| atom_start n rest : Atom n (u "^") rest RStart n
| atom_end n rest : Atom n (u "$") rest REnd n
| atom_escape n c a rest : Escape c a -> Atom n (u "\" ++ [c]) rest a n
| atom_char n c rest : ~ In c (u "([.^$\|)") -> no_bounds (c :: rest) -> Atom n [c] rest (RChar false [ILit c]) n.
Definition Pattern (s : str) (p : pattern) : Prop :=
  exists t, s = (if pt_ic p then u "(?i)" else []) ++ t /\ Alt 0 t [] (pt_re p) (pt_groups p).

Scheme Alt_ind' := Induction for Alt Sort Prop
  with Seq_ind' := Induction for Seq Sort Prop
  with Atom_ind' := Induction for Atom Sort Prop.
Combined Scheme grammar_ind from Alt_ind', Seq_ind', Atom_ind'.

(* ---------------------------------------------------------------- *)
(** ** Escapes *)
Lemma letter_spec c : ascii_letter c = true <-> letter c.
Proof. unfold ascii_letter, letter. rewrite Bool.orb_true_iff, !Bool.andb_true_iff, !N.leb_le. tauto. Qed.
Lemma digit_spec c : ascii_number c = true <-> digit c.
Proof. unfold ascii_number, digit. rewrite Bool.andb_true_iff, !N.leb_le. tauto. Qed.
Ltac literals c := repeat match goal with H : _ |- context [N.eqb c ?k] => destruct (N.eqb_spec c k) as [->|] end.
Lemma kind_spec c k neg : kind_of c = Some (k, neg) <-> In (c, (k, neg)) classes.
Proof.
  unfold kind_of, classes. cbn [In]. split.
  - destruct (N.eqb_spec c 100) as [->|]; [intros [= <- <-]; auto|]. destruct (N.eqb_spec c 68) as [->|]; [intros [= <- <-]; auto|].
    destruct (N.eqb_spec c 115) as [->|]; [intros [= <- <-]; auto|]. destruct (N.eqb_spec c 83) as [->|]; [intros [= <- <-]; auto|].
    destruct (N.eqb_spec c 119) as [->|]; [intros [= <- <-]; auto 8|]. destruct (N.eqb_spec c 87) as [->|]; [intros [= <- <-]; auto 10|]. discriminate.
  - intros H. repeat (destruct H as [H|H]; [injection H as <- <- <-; reflexivity|]). contradiction.
Qed.
Lemma control_spec c x : control c = Some x <-> In (c, x) controls.
Proof.
  unfold control, controls. cbn [In]. split.
  - destruct (N.eqb_spec c 110) as [->|]; [intros [= <-]; auto|]. destruct (N.eqb_spec c 116) as [->|]; [intros [= <-]; auto|].
    destruct (N.eqb_spec c 114) as [->|]; [intros [= <-]; auto|]. destruct (N.eqb_spec c 102) as [->|]; [intros [= <-]; auto|].
    destruct (N.eqb_spec c 118) as [->|]; [intros [= <-]; auto 8|]. destruct (N.eqb_spec c 97) as [->|]; [intros [= <-]; auto 10|]. discriminate.
  - intros H. repeat (destruct H as [H|H]; [injection H as <- <-; reflexivity|]). contradiction.
Qed.
Lemma not_letter c : ascii_letter c = false -> ~ letter c.
Proof. intros H K. apply letter_spec in K. congruence. Qed.
Lemma unsupported_spec c : unsupported_escape c = false -> ~ digit c.
Proof. unfold unsupported_escape. rewrite !Bool.orb_false_iff. intros [_ H] K. apply digit_spec in K. congruence. Qed.
(** other characters have no special meaning *)
Lemma itself c : ~ letter c -> ~ digit c -> kind_of c = None /\ control c = None /\ N.eqb c 98 = false /\ N.eqb c 66 = false /\ N.eqb c 65 = false /\ unsupported_escape c = false /\ ascii_letter c = false.
Proof.
  intros H K. assert (E : ascii_letter c = false) by (destruct (ascii_letter c) eqn:E; [apply letter_spec in E; contradiction|reflexivity]).
  assert (E' : ascii_number c = false) by (destruct (ascii_number c) eqn:E'; [apply digit_spec in E'; contradiction|reflexivity]).
  assert (L : forall x, letter x -> N.eqb c x = false) by (intros x Hx; apply N.eqb_neq; intros ->; contradiction).
  unfold kind_of, control, unsupported_escape. rewrite !L by (unfold letter; lia). rewrite E'. repeat split; auto.
Qed.
Lemma escape_spec c a : parse_escape c = Parsed a <-> Escape c a.
Proof.
  unfold parse_escape. split.
  - destruct (kind_of c) as [[k neg]|] eqn:E; [intros [= <-]; apply esc_class; now apply kind_spec|].
    destruct (control c) as [x|] eqn:E2; [intros [= <-]; apply esc_control; now apply control_spec|].
    destruct (N.eqb_spec c 98) as [->|]; [intros [= <-]; apply esc_boundary|]. destruct (N.eqb_spec c 66) as [->|]; [intros [= <-]; apply esc_no_boundary|].
    destruct (N.eqb_spec c 65) as [->|]; [intros [= <-]; apply esc_start|]. destruct (unsupported_escape c) eqn:E3; [discriminate|].
    destruct (ascii_letter c) eqn:E4; [discriminate|]. intros [= <-]. apply esc_itself; [now apply not_letter|now apply unsupported_spec].
  - intros H. destruct H as [c k neg H|c x H| | | |c H K]; try reflexivity.
    + apply kind_spec in H. now rewrite H.
    + assert (Ek : kind_of c = None) by (unfold controls in H; cbn [In] in H; repeat (destruct H as [H|H]; [injection H as <- <-; reflexivity|]); contradiction).
      apply control_spec in H. now rewrite Ek, H.
    + destruct (itself c H K) as (-> & -> & -> & -> & -> & -> & ->). reflexivity.
Qed.
Lemma set_escape_spec c i : parse_set_escape c = Parsed i <-> SetEscape c i.
Proof.
  unfold parse_set_escape. split.
  - destruct (kind_of c) as [[k neg]|] eqn:E; [intros [= <-]; apply set_class; now apply kind_spec|].
    destruct (control c) as [x|] eqn:E2; [intros [= <-]; apply set_control; now apply control_spec|].
    destruct (N.eqb_spec c 98) as [->|]; [intros [= <-]; apply set_backspace|]. destruct (unsupported_escape c) eqn:E3; [discriminate|].
    destruct (ascii_letter c) eqn:E4; [discriminate|]. intros [= <-]. apply set_itself; [now apply not_letter|now apply unsupported_spec].
  - intros H. destruct H as [c k neg H|c x H| |c H K]; try reflexivity.
    + apply kind_spec in H. now rewrite H.
    + assert (Ek : kind_of c = None) by (unfold controls in H; cbn [In] in H; repeat (destruct H as [H|H]; [injection H as <- <-; reflexivity|]); contradiction).
      apply control_spec in H. now rewrite Ek, H.
    + destruct (itself c H K) as (E1 & E2 & E3 & _ & _ & E6 & E7). now rewrite E1, E2, E3, E6, E7.
Qed.

(* ---------------------------------------------------------------- *)
(** ** Literals in patterns *)
Ltac no_literal := repeat (match goal with |- context [match ?x with _ => _ end] => is_var x; destruct x; try reflexivity; try contradiction end).
Lemma member_eq s : parse_member s =
  match s with
  | [] => BadPattern
  | c :: r => if N.eqb c 92 then match r with [] => BadPattern | d :: r' => pdo i <- parse_set_escape d ;; Parsed (i, r') end else Parsed (ILit c, r)
  end.
Proof.
  destruct s as [|c r]; [reflexivity|]. destruct (N.eqb_spec c 92) as [->|H]; [now destruct r|]. unfold parse_member. no_literal.
Qed.
Lemma bounds_eq s : parse_bounds s =
  match s with
  | [] => None
  | c :: r =>
      if N.eqb c 42 then Some (0, None, r) else if N.eqb c 43 then Some (1, None, r) else if N.eqb c 63 then Some (0, Some 1, r)
      else if N.eqb c 123 then
        match r with
        | [] => None
        | d :: _ =>
            if N.eqb d 125 then None else
            let (lo, r1) := number_of None r in
            let low := match lo with Some n => n | None => 0 end in
            match r1 with
            | [] => None
            | e :: r2 =>
                if N.eqb e 44 then let (hi, r3) := number_of None r2 in match r3 with x :: r4 => if N.eqb x 125 then Some (low, hi, r4) else None | [] => None end
                else if N.eqb e 125 then Some (low, lo, r2) else None
            end
        end
      else None
  end.
Proof.
  destruct s as [|c r]; [reflexivity|]. destruct (N.eqb_spec c 42) as [->|H1]; [reflexivity|]. destruct (N.eqb_spec c 43) as [->|H2]; [reflexivity|].
  destruct (N.eqb_spec c 63) as [->|H3]; [reflexivity|]. destruct (N.eqb_spec c 123) as [->|H4]; [|unfold parse_bounds; no_literal].
  destruct r as [|d r]; [reflexivity|]. destruct (N.eqb_spec d 125) as [->|H5]; [reflexivity|].
  transitivity (let (lo, r1) := number_of None (d :: r) in
      let low := match lo with Some n => n | None => 0 end in
      match r1 with
      | 44%N :: r2 =>
          let (hi, r3) := number_of None r2 in
          match r3 with 125%N :: r4 => Some (low, hi, r4) | _ => None end
      | 125%N :: r2 => Some (low, lo, r2)
      | _ => None
      end).
  { unfold parse_bounds. destruct d as [|d]; [reflexivity|]. repeat (match goal with |- context [match ?x with _ => _ end] => is_var x; destruct x; try reflexivity; try contradiction end). }
  destruct (number_of None (d :: r)) as [lo r1]. cbv zeta. destruct r1 as [|e r2]; [reflexivity|].
  destruct (N.eqb_spec e 44) as [->|H6].
  - destruct (number_of None r2) as [hi r3]. destruct r3 as [|x r4]; [reflexivity|]. destruct (N.eqb_spec x 125) as [->|H7]; [reflexivity|]. no_literal.
  - destruct (N.eqb_spec e 125) as [->|H7]; [reflexivity|]. no_literal.
Qed.

(* ---------------------------------------------------------------- *)
(** ** Bounds *)
Lemma number_of_some d : forall a r, Forall digit d -> (forall c r', r = c :: r' -> ~ digit c) ->
  number_of (Some a) (d ++ r) = (Some (fold_left (fun a c => 10 * a + N.to_nat (c - 48)) d a), r).
Proof.
  induction d as [|c d IH]; intros a r Hd Hr; cbn [app fold_left].
  - destruct r as [|x r]; [reflexivity|]. cbn [number_of]. destruct (ascii_number x) eqn:E; [|reflexivity]. apply digit_spec in E. exfalso. exact (Hr x r eq_refl E).
  - inversion Hd as [|? ? H1 H2]; subst. cbn [number_of]. apply digit_spec in H1. rewrite H1. now apply IH.
Qed.
Lemma number_of_none d r : Forall digit d -> (forall c r', r = c :: r' -> ~ digit c) -> number_of None (d ++ r) = (number_or None Some d, r).
Proof.
  intros Hd Hr. destruct d as [|c d].
  - cbn [app number_or]. destruct r as [|x r]; [reflexivity|]. cbn [number_of]. destruct (ascii_number x) eqn:E; [|reflexivity]. apply digit_spec in E. exfalso. exact (Hr x r eq_refl E).
  - inversion Hd as [|? ? H1 H2]; subst. cbn [app number_of]. apply digit_spec in H1. rewrite H1. rewrite number_of_some by assumption. reflexivity.
Qed.
Lemma digits_split s : exists d r, s = d ++ r /\ Forall digit d /\ (forall c r', r = c :: r' -> ~ digit c).
Proof.
  induction s as [|c s IH]; [exists [], []; repeat split; auto; discriminate|].
  destruct (ascii_number c) eqn:E.
  - destruct IH as (d & r & -> & H1 & H2). exists (c :: d), r. repeat split; auto. constructor; [now apply digit_spec|exact H1].
  - exists [], (c :: s). repeat split; auto. intros x r' [= <- <-] K. apply digit_spec in K. congruence.
Qed.
Lemma bounds_spec s lo hi r : parse_bounds s = Some (lo, hi, r) <-> exists b, s = b ++ r /\ Bounds b lo hi.
Proof.
  split.
  - rewrite bounds_eq. destruct s as [|c s]; [discriminate|].
    destruct (N.eqb_spec c 42) as [->|H1]; [intros [= <- <- <-]; exists (u "*"); split; [reflexivity|apply bounds_star]|].
    destruct (N.eqb_spec c 43) as [->|H2]; [intros [= <- <- <-]; exists (u "+"); split; [reflexivity|apply bounds_plus]|].
    destruct (N.eqb_spec c 63) as [->|H3]; [intros [= <- <- <-]; exists (u "?"); split; [reflexivity|apply bounds_option]|].
    destruct (N.eqb_spec c 123) as [->|H4]; [|discriminate]. destruct s as [|x s'] eqn:Es; [discriminate|]. destruct (N.eqb_spec x 125) as [->|H5]; [discriminate|]. rewrite <- Es.
    destruct (digits_split s) as (d & r0 & E & Hd & Hr). rewrite Es in E at 1. rewrite Es, E. clear Es. rewrite number_of_none by assumption. cbv zeta.
    destruct r0 as [|e r2]; [discriminate|]. destruct (N.eqb_spec e 44) as [->|H6].
    + destruct (digits_split r2) as (d' & r3 & -> & Hd' & Hr'). rewrite number_of_none by assumption. destruct r3 as [|y r4]; [discriminate|].
      destruct (N.eqb_spec y 125) as [->|]; [|discriminate]. intros [= <- <- <-]. exists (u "{" ++ d ++ u "," ++ d' ++ u "}").
      split; [cbn [app]; rewrite <- ?app_assoc; cbn [app]; rewrite <- ?app_assoc; reflexivity|].
      replace (match number_or None Some d with Some n => n | None => 0 end) with (number_or 0 (fun n => n) d) by (now destruct d). now apply bounds_between.
    + destruct (N.eqb_spec e 125) as [->|]; [|discriminate]. destruct d as [|d0 d]; [cbn [app] in E; congruence|]. intros [= <- <- <-].
      exists (u "{" ++ (d0 :: d) ++ u "}"). split; [change (u "}") with [125%N]; rewrite <- !app_assoc; reflexivity|]. now apply bounds_exact.
  - intros (b & -> & H). rewrite bounds_eq. destruct H as [| | |d Hd Hne|d d' Hd Hd']; try reflexivity.
    + change ((u "{" ++ d ++ u "}") ++ r) with (123%N :: (d ++ u "}") ++ r). rewrite <- app_assoc. change (u "}" ++ r) with (125%N :: r).
      destruct (d ++ 125%N :: r) as [|x s] eqn:Es; [destruct d; discriminate|].
      assert (Hx : N.eqb x 125 = false). { destruct d as [|d0 d]; [contradiction|]. injection Es as <- _. inversion Hd as [|? ? K _]; subst. apply N.eqb_neq. intros ->. unfold digit in K. lia. }
      rewrite Hx, <- Es, number_of_none; [|exact Hd|intros c r' [= <- _]; unfold digit; lia]. destruct d; [contradiction|]. reflexivity.
    + change ((u "{" ++ d ++ u "," ++ d' ++ u "}") ++ r) with (123%N :: (d ++ u "," ++ d' ++ u "}") ++ r). rewrite <- !app_assoc. change (u "," ++ d' ++ u "}" ++ r) with (44%N :: d' ++ 125%N :: r).
      destruct (d ++ 44%N :: d' ++ 125%N :: r) as [|x s] eqn:Es; [destruct d; discriminate|].
      assert (Hx : N.eqb x 125 = false). { destruct d as [|d0 d]; injection Es as <- _; [reflexivity|]. inversion Hd as [|? ? K _]; subst. apply N.eqb_neq. intros ->. unfold digit in K. lia. }
      rewrite Hx, <- Es, number_of_none; [|exact Hd|intros c r' [= <- _]; unfold digit; lia].
      rewrite number_of_none; [|exact Hd'|intros c r' [= <- _]; unfold digit; lia]. cbn [N.eqb Pos.eqb]. now destruct d.
Qed.
Lemma no_bounds_spec s : parse_bounds s = None <-> no_bounds s.
Proof.
  split.
  - intros H b r lo hi E K. assert (X : parse_bounds s = Some (lo, hi, r)) by (apply bounds_spec; eauto). congruence.
  - intros H. destruct (parse_bounds s) as [[[lo hi] r]|] eqn:E; [|reflexivity]. apply bounds_spec in E as (b & E & K). exfalso. exact (H b r lo hi E K).
Qed.

(* ---------------------------------------------------------------- *)
(** ** Sets *)
Lemma member_spec s i r : parse_member s = Parsed (i, r) <-> exists m, s = m ++ r /\ Member m i.
Proof.
  rewrite member_eq. split.
  - destruct s as [|c s]; [discriminate|]. destruct (N.eqb_spec c 92) as [->|H].
    + destruct s as [|d s]; [discriminate|]. destruct (parse_set_escape d) as [j| |] eqn:E; try discriminate. intros [= <- <-]. exists [92%N; d]. split; [reflexivity|]. apply member_escape. now apply set_escape_spec.
    + intros [= <- <-]. exists [c]. split; [reflexivity|now apply member_char].
  - intros (m & -> & H). destruct H as [c H|c i H]; cbn [app].
    + now apply N.eqb_neq in H as ->.
    + rewrite N.eqb_refl. apply set_escape_spec in H. now rewrite H.
Qed.
Lemma member_nonempty m i : Member m i -> m <> [].
Proof. intros H. destruct H; discriminate. Qed.
Definition range_follows (r : str) : bool := match r with e :: d :: _ => N.eqb e 45 && negb (N.eqb d 93) | _ => false end.
Lemma members_eq f first c r : parse_members (S f) first (c :: r) =
  if N.eqb c 93 && negb first then Parsed ([], r) else
  pdo (i, r1) <- parse_member (c :: r) ;;
  if range_follows r1 then
    pdo (j, r3) <- parse_member (tl r1) ;;
    match i, j with
    | ILit a, ILit b => if N.leb a b then pdo (l, r4) <- parse_members f false r3 ;; Parsed (IRange a b :: l, r4) else BadPattern
    | _, _ => BadPattern
    end
  else pdo (l, r3) <- parse_members f false r1 ;; Parsed (i :: l, r3).
Proof.
  cbn [parse_members]. destruct (N.eqb c 93 && negb first); [reflexivity|]. destruct (parse_member (c :: r)) as [[i r1]| |]; [|reflexivity|reflexivity]. cbn [pbind].
  destruct r1 as [|e r1]; [reflexivity|]. destruct (N.eqb_spec e 45) as [->|H].
  - destruct r1 as [|d r1]; [reflexivity|]. unfold range_follows. cbn [N.eqb Pos.eqb andb tl]. now destruct (N.eqb d 93).
  - unfold range_follows. destruct r1 as [|d r1]; [no_literal|]. apply N.eqb_neq in H as H'. rewrite H'. cbn [andb]. no_literal.
Qed.
Lemma starts_app c m t : m <> [] -> starts c (m ++ t) <-> starts c m.
Proof. intros H. destruct m as [|x m]; [contradiction|]. unfold starts. split; intros (r & E); injection E as -> _; cbn [app]; eauto. Qed.
Lemma members_not_close first t l : Members first t l -> first = false -> ~ starts 93 t.
Proof.
  intros H Hf. destruct H as [|first m i t l M S _ T|first m a m' b t l M S _ _ _ T]; [intros (r & E); discriminate| |];
    (rewrite starts_app by (exact (member_nonempty _ _ M)); now apply S).
Qed.
Lemma members_dash first t l r : Members first t l -> first = false -> t <> 45%N :: 93%N :: r.
Proof.
  intros H Hf E. destruct H as [|first m i t l M S _ T|first m a m' b t l M S _ _ _ T]; [discriminate| |]; destruct M as [c Hc|c i Hc]; try discriminate.
  - injection E as _ E. subst t. apply (members_not_close _ _ _ T eq_refl). now eexists.
Qed.
Lemma members_sound f : forall first s l r, parse_members f first s = Parsed (l, r) -> exists t, s = t ++ 93%N :: r /\ Members first t l.
Proof.
  induction f as [|f IH]; intros first s l r H; [discriminate|]. destruct s as [|c s]; [discriminate|]. rewrite members_eq in H.
  destruct (N.eqb c 93 && negb first) eqn:Ec.
  { apply Bool.andb_true_iff in Ec as [E1 E2]. apply N.eqb_eq in E1. apply Bool.negb_true_iff in E2. subst. injection H as <- <-. exists []. split; [reflexivity|constructor]. }
  destruct (parse_member (c :: s)) as [[i r1]| |] eqn:Em; try discriminate. cbn [pbind] in H. apply member_spec in Em as (m & Em & Hm).
  assert (Hf : first = false -> ~ starts 93 m).
  { intros -> (m' & ->). injection Em as -> _. discriminate. }
  destruct (range_follows r1) eqn:Er.
  - destruct r1 as [|e [|d r1]]; try discriminate. unfold range_follows in Er. apply Bool.andb_true_iff in Er as [E1 E2]. apply N.eqb_eq in E1. apply Bool.negb_true_iff, N.eqb_neq in E2. subst e. cbn [tl] in H.
    destruct (parse_member (d :: r1)) as [[j r3]| |] eqn:Ej; try discriminate. cbn [pbind] in H. apply member_spec in Ej as (m' & Ej & Hm').
    destruct i as [a| |]; try discriminate. destruct j as [b| |]; try discriminate. destruct (N.leb_spec a b) as [Hab|_]; [|discriminate].
    destruct (parse_members f false r3) as [[l' r4]| |] eqn:El; try discriminate. injection H as <- <-. apply IH in El as (t & -> & Ht).
    exists (m ++ [45%N] ++ m' ++ t). split; [rewrite Em, Ej, <- !app_assoc; reflexivity|]. apply members_range; auto.
    intros (m2 & ->). injection Ej as -> _. contradiction.
  - destruct (parse_members f false r1) as [[l' r4]| |] eqn:El; try discriminate. injection H as <- <-. apply IH in El as (t & -> & Ht).
    exists (m ++ t). split; [rewrite Em, <- app_assoc; reflexivity|]. apply members_one; auto.
    intros (d & r' & ->). unfold range_follows in Er. cbn [app] in Er. rewrite N.eqb_refl in Er. cbn [andb] in Er. apply Bool.negb_false_iff, N.eqb_eq in Er. subst d.
    now apply (members_dash _ _ _ r' Ht eq_refl).
Qed.
Lemma members_complete first t l : Members first t l -> forall f r, length t < f -> parse_members f first (t ++ 93%N :: r) = Parsed (l, r).
Proof.
  induction 1 as [|first m i t l M S D T IH|first m a m' b t l M S M' S' Hab T IH]; intros f r Hf; (destruct f as [|f]; [cbn in Hf; lia|]).
  - reflexivity.
  - assert (Hm := member_nonempty _ _ M). destruct m as [|c m]; [contradiction|]. rewrite <- app_assoc. cbn [app]. rewrite members_eq.
    assert (Hc : N.eqb c 93 && negb first = false).
    { destruct (N.eqb_spec c 93) as [->|]; [|reflexivity]. destruct first; [reflexivity|]. exfalso. apply S; [reflexivity|now eexists]. }
    rewrite Hc. assert (E : parse_member (c :: m ++ t ++ 93%N :: r) = Parsed (i, t ++ 93%N :: r)) by (apply member_spec; exists (c :: m); auto). rewrite E. cbn [pbind].
    assert (Er : range_follows (t ++ 93%N :: r) = false).
    { destruct t as [|e [|d t]]; [now destruct r| |].
      - unfold range_follows. cbn [app]. now rewrite N.eqb_refl, Bool.andb_false_r.
      - unfold range_follows. cbn [app]. destruct (N.eqb_spec e 45) as [->|]; [|reflexivity]. exfalso. apply D. eauto. }
    rewrite Er, IH by (rewrite app_length in Hf; cbn [length] in Hf; lia). reflexivity.
  - assert (Hm := member_nonempty _ _ M). assert (Hm' := member_nonempty _ _ M'). destruct m as [|c m]; [contradiction|]. rewrite <- !app_assoc. cbn [app]. rewrite members_eq.
    assert (Hc : N.eqb c 93 && negb first = false).
    { destruct (N.eqb_spec c 93) as [->|]; [|reflexivity]. destruct first; [reflexivity|]. exfalso. apply S; [reflexivity|now eexists]. }
    rewrite Hc. assert (E : parse_member (c :: m ++ 45%N :: m' ++ t ++ 93%N :: r) = Parsed (ILit a, 45%N :: m' ++ t ++ 93%N :: r)) by (apply member_spec; exists (c :: m); auto).
    rewrite E. cbn [pbind].
    assert (Er : range_follows (45%N :: m' ++ t ++ 93%N :: r) = true).
    { destruct m' as [|d m']; [contradiction|]. unfold range_follows. cbn [app]. rewrite N.eqb_refl. cbn [andb]. apply Bool.negb_true_iff, N.eqb_neq. intros ->. apply S'. now eexists. }
    rewrite Er. cbn [tl]. assert (E' : parse_member (m' ++ t ++ 93%N :: r) = Parsed (ILit b, t ++ 93%N :: r)) by (apply member_spec; eauto). rewrite E'. cbn [pbind].
    apply N.leb_le in Hab. rewrite Hab, IH by (rewrite !app_length in Hf; cbn [length] in Hf; lia). reflexivity.
Qed.

(* ---------------------------------------------------------------- *)
(** ** Suffixes *)
Lemma repeatable_spec a : repeatable a = true <-> may_repeat a.
Proof. destruct a; cbn; split; auto; try discriminate; contradiction. Qed.
Lemma suffix_spec a s a' r : parse_repeat a s = Parsed (a', r) <-> exists x, s = x ++ r /\ Suffix x a a' /\ no_bounds r.
Proof.
  assert (Q : forall r' : str, match r' with 63%N :: r'' => (false, r'') | _ => (true, r') end = match r' with c :: r'' => if N.eqb c 63 then (false, r'') else (true, r') | [] => (true, r') end).
  { intros [|c r']; [reflexivity|]. destruct (N.eqb_spec c 63) as [->|]; [reflexivity|]. no_literal. }
  assert (O : forall (lo : nat) hi, match hi with Some h => h <? lo | None => false end = false <-> forall h, hi = Some h -> lo <= h).
  { intros lo [h|]; [|split; [discriminate|reflexivity]]. rewrite Nat.ltb_ge. split; [intros K h' [= <-]; exact K|auto]. }
  unfold parse_repeat. split.
  - destruct (parse_bounds s) as [[[lo hi] r0]|] eqn:E.
    + apply bounds_spec in E as (b & -> & Hb). destruct (negb (repeatable a) || _) eqn:Ec; [discriminate|]. apply Bool.orb_false_iff in Ec as [E1 E2].
      apply Bool.negb_false_iff, repeatable_spec in E1. pose proof (proj1 (O lo hi) E2) as E2'. rewrite Q. destruct r0 as [|c r0].
      * destruct (parse_bounds []) eqn:E3; [discriminate|]. intros [= <- <-]. exists b. split; [reflexivity|]. split; [now apply suffix_greedy|now apply no_bounds_spec].
      * destruct (N.eqb_spec c 63) as [->|Hc].
        -- destruct (parse_bounds r0) eqn:E3; [discriminate|]. intros [= <- <-]. exists (b ++ u "?"). split; [now rewrite <- app_assoc|]. split; [now apply suffix_lazy|now apply no_bounds_spec].
        -- destruct (parse_bounds (c :: r0)) eqn:E3; [discriminate|]. intros [= <- <-]. exists b. split; [reflexivity|]. split; [now apply suffix_greedy|now apply no_bounds_spec].
    + intros [= <- <-]. exists []. split; [reflexivity|]. split; [constructor|now apply no_bounds_spec].
  - intros (x & -> & H & N). destruct H as [a|b lo hi a Hb Ha Ho|b lo hi a Hb Ha Ho].
    + cbn [app]. apply no_bounds_spec in N. now rewrite N.
    + assert (E : parse_bounds (b ++ r) = Some (lo, hi, r)) by (apply bounds_spec; eauto). rewrite E. apply repeatable_spec in Ha. pose proof (proj2 (O lo hi) Ho) as Ho'. rewrite Ha, Ho'. cbn [negb orb]. rewrite Q.
      destruct r as [|c r]; [apply no_bounds_spec in N; now rewrite N|]. destruct (N.eqb_spec c 63) as [->|]; [|apply no_bounds_spec in N; now rewrite N].
      exfalso. apply (N (u "?") r 0 (Some 1)); [reflexivity|apply bounds_option].
    + rewrite <- app_assoc. assert (E : parse_bounds (b ++ u "?" ++ r) = Some (lo, hi, u "?" ++ r)) by (apply bounds_spec; eauto). rewrite E. apply repeatable_spec in Ha. pose proof (proj2 (O lo hi) Ho) as Ho'. rewrite Ha, Ho'. cbn [negb orb].
      change (u "?" ++ r) with (63%N :: r). cbv iota. apply no_bounds_spec in N. now rewrite N.
Qed.

(* ---------------------------------------------------------------- *)
(** ** Expressions *)
Definition negation (s : str) : bool * str := match s with c :: r => if N.eqb c 94 then (true, r) else (false, s) | [] => (false, s) end.
Lemma set_eq s : parse_set s =
  let (neg, s') := negation s in
  pdo (l, r) <- parse_members (S (length s')) true s' ;; Parsed (RChar neg l, r).
Proof.
  assert (Q : match s with 94%N :: r => (true, r) | _ => (false, s) end = negation s).
  { unfold negation. destruct s as [|c r]; [reflexivity|]. destruct (N.eqb_spec c 94) as [->|]; [reflexivity|]. no_literal. }
  unfold parse_set. now rewrite Q.
Qed.
Lemma set_spec s a r : parse_set s = Parsed (a, r) <->
  exists t l, Members true t l /\ (s = t ++ u "]" ++ r /\ ~ starts 94 t /\ a = RChar false l \/ s = u "^" ++ t ++ u "]" ++ r /\ a = RChar true l).
Proof.
  rewrite set_eq. split.
  - unfold negation. destruct s as [|c s].
    + cbn. discriminate.
    + destruct (N.eqb_spec c 94) as [->|H]; cbv zeta beta iota.
      * destruct (parse_members _ true s) as [[l r']| |] eqn:E; try discriminate. intros [= <- <-]. apply members_sound in E as (t & -> & Ht). exists t, l. split; [exact Ht|]. right. split; reflexivity.
      * destruct (parse_members _ true (c :: s)) as [[l r']| |] eqn:E; try discriminate. intros [= <- <-]. apply members_sound in E as (t & E & Ht). exists t, l. split; [exact Ht|]. left. split; [exact E|]. split; [|reflexivity].
        intros (t' & ->). injection E as -> _. contradiction.
  - intros (t & l & Ht & [(-> & Hn & ->)|(-> & ->)]).
    + assert (E : negation (t ++ u "]" ++ r) = (false, t ++ u "]" ++ r)).
      { unfold negation. destruct t as [|c t]; [reflexivity|]. cbn [app]. destruct (N.eqb_spec c 94) as [->|]; [|reflexivity]. exfalso. apply Hn. now eexists. }
      rewrite E. change (u "]" ++ r) with (93%N :: r). rewrite (members_complete _ _ _ Ht) by (rewrite app_length; cbn [length]; lia). reflexivity.
    + change (u "^" ++ t ++ u "]" ++ r) with (94%N :: t ++ 93%N :: r). change (negation (94%N :: ?x)) with (true, x). cbv iota. rewrite (members_complete _ _ _ Ht) by (rewrite app_length; cbn [length]; lia). reflexivity.
Qed.
Lemma alt_eq f n s : parse_alt (S f) n s =
  pdo (a, n1, r) <- parse_seq f n s ;;
  match r with
  | c :: r1 => if N.eqb c 124 then pdo (b, n2, r2) <- parse_alt f n1 r1 ;; Parsed (RAlt a b, n2, r2) else Parsed (a, n1, r)
  | [] => Parsed (a, n1, r)
  end.
Proof.
  cbn [parse_alt]. destruct (parse_seq f n s) as [[[a n1] r]| |]; [|reflexivity|reflexivity]. cbn [pbind]. destruct r as [|c r]; [reflexivity|].
  destruct (N.eqb_spec c 124) as [->|]; [reflexivity|]. no_literal.
Qed.
Definition closing {A} (mk : re -> A) (x : parsed (re * nat * str)) : parsed (A * nat * str) :=
  pdo (a, n1, r2) <- x ;; match r2 with c :: r3 => if N.eqb c 41 then Parsed (mk a, n1, r3) else BadPattern | [] => BadPattern end.
Lemma atom_eq f n c r : parse_atom (S f) n (c :: r) =
  if N.eqb c 40 then
    if starts_with (u "?:") r then closing (fun a => a) (parse_alt f n (skipn 2 r))
    else if starts_with (u "?") r then Unsupported else closing (RGroup (S n)) (parse_alt f (S n) r)
  else if N.eqb c 91 then pdo (a, r1) <- parse_set r ;; Parsed (a, n, r1)
  else if N.eqb c 46 then Parsed (RAny, n, r)
  else if N.eqb c 94 then Parsed (RStart, n, r)
  else if N.eqb c 36 then Parsed (REnd, n, r)
  else if N.eqb c 92 then match r with d :: r1 => pdo a <- parse_escape d ;; Parsed (a, n, r1) | [] => BadPattern end
  else match parse_bounds (c :: r) with Some _ => BadPattern | None => Parsed (RLit c, n, r) end.
Proof.
  assert (C : forall A (mk : re -> A) x, closing mk x = (pdo (a, n1, r2) <- x ;; match r2 with 41%N :: r3 => Parsed (mk a, n1, r3) | _ => BadPattern end)).
  { intros A mk x. unfold closing. destruct x as [[[a n1] r2]| |]; [|reflexivity|reflexivity]. cbn [pbind]. destruct r2 as [|d r2]; [reflexivity|]. destruct (N.eqb_spec d 41) as [->|]; [reflexivity|]. symmetry. no_literal. }
  cbn [parse_atom]. destruct (N.eqb c 40); [|reflexivity]. rewrite !C. destruct r as [|d r]; [reflexivity|].
  destruct (N.eqb_spec d 63) as [->|H].
  - destruct r as [|e r]; [reflexivity|]. destruct (N.eqb_spec e 58) as [->|H]; [reflexivity|].
    replace (starts_with (u "?:") (63%N :: e :: r)) with false by (symmetry; change (N.eqb 63 63 && (N.eqb 58 e && true) = false); rewrite Bool.andb_true_r; apply N.eqb_neq; congruence).
    change (starts_with (u "?") (63%N :: e :: r)) with true. cbv iota. no_literal.
  - replace (starts_with (u "?:") (d :: r)) with false by (symmetry; change (N.eqb 63 d && starts_with (u ":") r = false); apply Bool.andb_false_iff; left; apply N.eqb_neq; congruence).
    replace (starts_with (u "?") (d :: r)) with false by (symmetry; change (N.eqb 63 d && true = false); apply Bool.andb_false_iff; left; apply N.eqb_neq; congruence).
    no_literal.
Qed.
Lemma not_starts c x s : ~ starts x (c :: s) <-> N.eqb c x = false.
Proof. rewrite N.eqb_neq. unfold starts. split; [intros H ->; apply H; eauto|intros H (r & E); injection E as -> _; contradiction]. Qed.
Lemma closing_ok {A} (mk : re -> A) x a n1 r : closing mk x = Parsed (a, n1, r) <-> exists b, x = Parsed (b, n1, u ")" ++ r) /\ a = mk b.
Proof.
  unfold closing. split.
  - destruct x as [[[b n2] r2]| |]; try discriminate. cbn [pbind]. destruct r2 as [|c r2]; [discriminate|]. destruct (N.eqb_spec c 41) as [->|]; [|discriminate].
    intros [= <- <- <-]. exists b. auto.
  - intros (b & -> & ->). reflexivity.
Qed.
Lemma sound f :
  (forall n s a n1 r, parse_alt f n s = Parsed (a, n1, r) -> exists t, s = t ++ r /\ Alt n t r a n1) /\
  (forall n s a n1 r, parse_seq f n s = Parsed (a, n1, r) -> exists t, s = t ++ r /\ Seq n t r a n1) /\
  (forall n s a n1 r, parse_atom f n s = Parsed (a, n1, r) -> ~ starts 124 s -> ~ starts 41 s -> exists t, s = t ++ r /\ Atom n t r a n1).
Proof.
  induction f as [|f (IH1 & IH2 & IH3)]; [repeat split; intros; discriminate|]. split; [|split].
  - intros n s a n1 r H. rewrite alt_eq in H. destruct (parse_seq f n s) as [[[a0 n0] r0]| |] eqn:E; try discriminate. cbn [pbind] in H. apply IH2 in E as (t & -> & Ht).
    destruct r0 as [|c r0].
    + injection H as <- <- <-. exists t. split; [reflexivity|]. apply alt_one; [exact Ht|]. intros (x & [=]).
    + destruct (N.eqb_spec c 124) as [->|Hc].
      * destruct (parse_alt f n0 r0) as [[[b n2] r2]| |] eqn:E2; try discriminate. injection H as <- <- <-. apply IH1 in E2 as (t' & -> & Ht').
        exists (t ++ u "|" ++ t'). split; [now rewrite <- !app_assoc|]. eapply alt_more; [exact Ht|exact Ht'].
      * injection H as <- <- <-. exists t. split; [reflexivity|]. apply alt_one; [exact Ht|]. intros (x & [= -> _]). contradiction.
  - intros n s a n1 r H. cbn [parse_seq] in H. destruct s as [|c s].
    + injection H as <- <- <-. exists []. split; [reflexivity|]. apply seq_end. now left.
    + destruct (N.eqb c 124 || N.eqb c 41) eqn:Ec.
      * injection H as <- <- <-. exists []. split; [reflexivity|]. apply seq_end. right. apply Bool.orb_true_iff in Ec. destruct Ec as [E|E]; apply N.eqb_eq in E; subst; [left|right]; now eexists.
      * apply Bool.orb_false_iff in Ec as [E1 E2]. destruct (parse_atom f n (c :: s)) as [[[a0 n0] r0]| |] eqn:E; try discriminate. cbn [pbind] in H.
        apply IH3 in E as (t & E & Ht); [|now apply not_starts|now apply not_starts].
        destruct (parse_repeat a0 r0) as [[a' r1]| |] eqn:Er; try discriminate. cbn [pbind] in H. apply suffix_spec in Er as (x & -> & Hx & Hn).
        destruct (parse_seq f n0 r1) as [[[b n2] r2]| |] eqn:Es; try discriminate. injection H as <- <- <-. apply IH2 in Es as (t' & -> & Ht').
        exists (t ++ x ++ t'). split; [rewrite E, <- !app_assoc; reflexivity|]. eapply seq_more; eassumption.
  - intros n s a n1 r H N1 N2. destruct s as [|c s]; [discriminate|]. rewrite atom_eq in H. apply not_starts in N1, N2.
    destruct (N.eqb_spec c 40) as [->|C1].
    { destruct (starts_with (u "?:") s) eqn:Q1.
      - apply starts_with_spec in Q1 as (x & ->). apply closing_ok in H as (b & H & ->). change (skipn 2 (u "?:" ++ x)) with x in H. apply IH1 in H as (t & -> & Ht).
        exists (u "(?:" ++ t ++ u ")"). split; [rewrite <- !app_assoc; reflexivity|]. now apply atom_plain.
      - destruct (starts_with (u "?") s) eqn:Q2; [discriminate|]. apply closing_ok in H as (b & H & ->). apply IH1 in H as (t & -> & Ht).
        exists (u "(" ++ t ++ u ")"). split; [rewrite <- !app_assoc; reflexivity|]. now apply atom_group. }
    destruct (N.eqb_spec c 91) as [->|C2].
    { destruct (parse_set s) as [[a0 r0]| |] eqn:E; try discriminate. injection H as <- <- <-. apply set_spec in E as (t & l & Ht & [(-> & Hn & ->)|(-> & ->)]).
      - exists (u "[" ++ t ++ u "]"). split; [rewrite <- !app_assoc; reflexivity|]. now apply atom_set.
      - exists (u "[^" ++ t ++ u "]"). split; [rewrite <- !app_assoc; reflexivity|]. now apply atom_not. }
    destruct (N.eqb_spec c 46) as [->|C3]; [injection H as <- <- <-; exists (u "."); split; [reflexivity|apply atom_any]|].
    destruct (N.eqb_spec c 94) as [->|C4]; [injection H as <- <- <-; exists (u "^"); split; [reflexivity|apply atom_start]|].
    destruct (N.eqb_spec c 36) as [->|C5]; [injection H as <- <- <-; exists (u "$"); split; [reflexivity|apply atom_end]|].
    destruct (N.eqb_spec c 92) as [->|C6].
    { destruct s as [|d s]; [discriminate|]. destruct (parse_escape d) as [a0| |] eqn:E; try discriminate. injection H as <- <- <-. exists (u "\" ++ [d]). split; [reflexivity|]. apply atom_escape. now apply escape_spec. }
    destruct (parse_bounds (c :: s)) eqn:E; [discriminate|]. injection H as <- <- <-. exists [c]. split; [reflexivity|]. apply atom_char; [|now apply no_bounds_spec].
    apply N.eqb_neq in N1, N2. change (u "([.^$\|)") with [40; 91; 46; 94; 36; 92; 124; 41]%N. cbn [In]. intuition congruence.
Qed.

Lemma atom_head n t rest a n1 : Atom n t rest a n1 -> exists c t0, t = c :: t0 /\ c <> 124%N /\ c <> 41%N /\ c <> 63%N.
Proof.
  intros H. destruct H as [n t rest a n1 H|n t rest a n1 H|n t l rest H K|n t l rest H|n rest|n rest|n rest|n c a rest H|n c rest H K];
    try (eexists; eexists; split; [reflexivity|]; repeat split; discriminate).
  exists c, []. split; [reflexivity|]. change (u "([.^$\|)") with [40; 91; 46; 94; 36; 92; 124; 41]%N in H. cbn [In] in H.
  split; [intros ->; apply H; auto 10|]. split; [intros ->; apply H; auto 10|]. intros ->. exact (K (u "?") rest 0 (Some 1) eq_refl bounds_option).
Qed.
Lemma seq_not_option n t rest a n1 : Seq n t rest a n1 -> ~ starts 63 (t ++ rest).
Proof.
  intros H. destruct H as [n rest [->|[(r & ->)|(r & ->)]]|n t s t' rest a a' b n1 n2 H _ _ _]; [intros (x & [=])..|].
  apply atom_head in H as (c & t0 & -> & _ & _ & H). cbn [app]. apply not_starts. now apply N.eqb_neq.
Qed.
Lemma alt_not_option n t rest a n1 : Alt n t rest a n1 -> ~ starts 63 (t ++ rest).
Proof.
  intros H. destruct H as [n t rest a n1 H _|n t t' rest a b n1 n2 H _]; apply seq_not_option in H; [exact H|]. now rewrite <- !app_assoc.
Qed.
Lemma complete :
  (forall n t rest a n1, Alt n t rest a n1 -> forall f, 3 * length t + 3 <= f -> parse_alt f n (t ++ rest) = Parsed (a, n1, rest)) /\
  (forall n t rest a n1, Seq n t rest a n1 -> forall f, 3 * length t + 2 <= f -> parse_seq f n (t ++ rest) = Parsed (a, n1, rest)) /\
  (forall n t rest a n1, Atom n t rest a n1 -> forall f, 3 * length t + 1 <= f -> parse_atom f n (t ++ rest) = Parsed (a, n1, rest)).
Proof.
  apply grammar_ind.
  - intros n t rest a n1 H IH N f Hf. destruct f as [|f]; [lia|]. rewrite alt_eq, IH by lia. cbn [pbind]. destruct rest as [|c rest]; [reflexivity|]. apply not_starts in N. now rewrite N.
  - intros n t t' rest a b n1 n2 H IH H' IH' f Hf. rewrite !app_length in Hf. change (length (u "|")) with 1 in Hf. destruct f as [|f]; [lia|]. rewrite alt_eq, <- !app_assoc, IH by lia. cbn [pbind].
    change (u "|" ++ t' ++ rest) with (124%N :: t' ++ rest). cbn [N.eqb Pos.eqb]. rewrite IH' by lia. reflexivity.
  - intros n rest H f Hf. destruct f as [|f]; [cbn in Hf; lia|]. cbn [app parse_seq]. destruct H as [->|[(r & ->)|(r & ->)]]; reflexivity.
  - intros n t s t' rest a a' b n1 n2 H IH Hs Hn H' IH' f Hf. rewrite !app_length in Hf. destruct f as [|f]; [lia|]. rewrite <- !app_assoc.
    destruct (atom_head _ _ _ _ _ H) as (c & t0 & E & E1 & E2 & _). assert (L : 1 <= length t) by (rewrite E; cbn [length]; lia).
    assert (K : parse_seq (S f) n (t ++ s ++ t' ++ rest) = (pdo (a, n1, r) <- parse_atom f n (t ++ s ++ t' ++ rest) ;; pdo (a', r1) <- parse_repeat a r ;; pdo (b, n2, r2) <- parse_seq f n1 r1 ;; Parsed (RSeq a' b, n2, r2))).
    { rewrite E. cbn [app parse_seq]. apply N.eqb_neq in E1, E2. now rewrite E1, E2. }
    rewrite K, IH by lia. cbn [pbind]. assert (R : parse_repeat a (s ++ t' ++ rest) = Parsed (a', t' ++ rest)) by (apply suffix_spec; eauto). rewrite R. cbn [pbind]. rewrite IH' by lia. reflexivity.
  - intros n t rest a n1 H IH f Hf. apply alt_not_option in H. rewrite !app_length in Hf. change (length (u "(")) with 1 in Hf. change (length (u ")")) with 1 in Hf. destruct f as [|f]; [lia|].
    rewrite <- !app_assoc. change (u "(" ++ t ++ u ")" ++ rest) with (40%N :: t ++ u ")" ++ rest). rewrite atom_eq. cbn [N.eqb Pos.eqb].
    assert (Q : forall x, starts_with (63%N :: x) (t ++ u ")" ++ rest) = false).
    { intros x. destruct (starts_with _ _) eqn:E; [|reflexivity]. apply starts_with_spec in E as (r & E). exfalso. apply H. exists (x ++ r). exact E. }
    change (u "?:") with (63%N :: u ":"). change (u "?") with [63%N]. rewrite !Q. apply closing_ok. exists a. split; [|reflexivity]. apply IH. lia.
  - intros n t rest a n1 H IH f Hf. rewrite !app_length in Hf. change (length (u "(?:")) with 3 in Hf. change (length (u ")")) with 1 in Hf. destruct f as [|f]; [lia|].
    rewrite <- !app_assoc. change (u "(?:" ++ t ++ u ")" ++ rest) with (40%N :: u "?:" ++ t ++ u ")" ++ rest). rewrite atom_eq. cbn [N.eqb Pos.eqb].
    rewrite starts_with_app. apply closing_ok. exists a. split; [|reflexivity]. apply IH. lia.
  - intros n t l rest H N f Hf. destruct f as [|f]; [lia|]. rewrite <- !app_assoc. change (u "[" ++ t ++ u "]" ++ rest) with (91%N :: t ++ u "]" ++ rest). rewrite atom_eq. cbn [N.eqb Pos.eqb].
    assert (E : parse_set (t ++ u "]" ++ rest) = Parsed (RChar false l, rest)) by (apply set_spec; exists t, l; auto). rewrite E. reflexivity.
  - intros n t l rest H f Hf. destruct f as [|f]; [lia|]. rewrite <- !app_assoc. change (u "[^" ++ t ++ u "]" ++ rest) with (91%N :: u "^" ++ t ++ u "]" ++ rest). rewrite atom_eq. cbn [N.eqb Pos.eqb].
    assert (E : parse_set (u "^" ++ t ++ u "]" ++ rest) = Parsed (RChar true l, rest)) by (apply set_spec; exists t, l; auto). rewrite E. reflexivity.
  - intros n rest f Hf. destruct f as [|f]; [lia|]. reflexivity.
  - intros n rest f Hf. destruct f as [|f]; [lia|]. reflexivity.
  - intros n rest f Hf. destruct f as [|f]; [lia|]. reflexivity.
  - intros n c a rest H f Hf. destruct f as [|f]; [lia|]. change ((u "\" ++ [c]) ++ rest) with (92%N :: c :: rest). rewrite atom_eq. cbn [N.eqb Pos.eqb]. apply escape_spec in H. rewrite H. reflexivity.
  - intros n c rest H K f Hf. destruct f as [|f]; [lia|]. cbn [app]. rewrite atom_eq. change (u "([.^$\|)") with [40; 91; 46; 94; 36; 92; 124; 41]%N in H. cbn [In] in H.
    assert (X : forall x, In x [40; 91; 46; 94; 36; 92]%N -> N.eqb c x = false).
    { intros x Hx. apply N.eqb_neq. intros ->. apply H. cbn [In] in Hx. intuition auto 10. }
    rewrite !X by (cbn [In]; auto 10). apply no_bounds_spec in K. now rewrite K.
Qed.

(* ---------------------------------------------------------------- *)
(** ** Theorems *)
(** A text is read as a pattern exactly if the grammar says so. *)
Theorem C129_reads s p : re_compile s = Parsed p <-> Pattern s p.
Proof.
  unfold re_compile, Pattern. split.
  - destruct (starts_with (u "(?i)") s) eqn:E.
    + apply starts_with_spec in E as (t & ->). change (skipn 4 (u "(?i)" ++ t)) with t. destruct (parse_alt _ 0 t) as [[[a n] r]| |] eqn:Ea; try discriminate. cbn [pbind].
      destruct r; [|discriminate]. intros [= <-]. apply (proj1 (sound _)) in Ea as (t' & Et & Ht). rewrite app_nil_r in Et. subst t'. exists t. auto.
    + destruct (parse_alt _ 0 s) as [[[a n] r]| |] eqn:Ea; try discriminate. cbn [pbind].
      destruct r; [|discriminate]. intros [= <-]. apply (proj1 (sound _)) in Ea as (t' & Et & Ht). rewrite app_nil_r in Et. subst t'. exists s. auto.
  - intros (t & -> & H). destruct p as [ic n a]. cbn [pt_ic pt_re pt_groups] in *.
    assert (K : parse_alt (3 * length t + 3) 0 t = Parsed (a, n, [])) by (rewrite <- (app_nil_r t) at 2; apply complete; auto).
    destruct ic.
    + rewrite starts_with_app. change (skipn 4 (u "(?i)" ++ t)) with t. rewrite K. reflexivity.
    + cbn [app]. destruct (starts_with (u "(?i)") t) eqn:E; [|now rewrite K]. exfalso. apply starts_with_spec in E as (x & ->).
      rewrite Nat.add_comm in K. change (3 + 3 * length (u "(?i)" ++ x)) with (S (S (S (3 * length (u "(?i)" ++ x))))) in K.
      rewrite alt_eq in K. change (u "(?i)" ++ x) with (40%N :: u "?i)" ++ x) in K. cbn [parse_seq] in K. cbn [N.eqb Pos.eqb orb] in K. discriminate.
Qed.
(** In one way only. *)
Theorem C129_unique s p p' : Pattern s p -> Pattern s p' -> p = p'.
Proof. intros H H'. apply C129_reads in H, H'. congruence. Qed.
(** Groups are numbered by where they open, from one on. *)
Fixpoint group_numbers (a : re) : list nat :=
  match a with
  | RSeq a b | RAlt a b => group_numbers a ++ group_numbers b
  | RGroup n a => n :: group_numbers a
  | RRep _ _ _ a => group_numbers a
  | _ => []
  end.
Lemma suffix_groups s a a' : Suffix s a a' -> group_numbers a' = group_numbers a.
Proof. intros H. destruct H; reflexivity. Qed.
Lemma escape_groups c a : Escape c a -> group_numbers a = [].
Proof. intros H. destruct H; reflexivity. Qed.
Lemma numbered :
  (forall n t rest a n1, Alt n t rest a n1 -> n <= n1 /\ group_numbers a = seq (S n) (n1 - n)) /\
  (forall n t rest a n1, Seq n t rest a n1 -> n <= n1 /\ group_numbers a = seq (S n) (n1 - n)) /\
  (forall n t rest a n1, Atom n t rest a n1 -> n <= n1 /\ group_numbers a = seq (S n) (n1 - n)).
Proof.
  assert (J : forall n n1 n2, n <= n1 -> n1 <= n2 -> seq (S n) (n1 - n) ++ seq (S n1) (n2 - n1) = seq (S n) (n2 - n)).
  { intros n n1 n2 H K. replace (n2 - n) with ((n1 - n) + (n2 - n1)) by lia. rewrite seq_app. do 2 f_equal. lia. }
  assert (Z : forall n, n <= n /\ (@nil nat) = seq (S n) (n - n)) by (intros n; split; [lia|now rewrite Nat.sub_diag]).
  apply grammar_ind; intros; cbn [group_numbers]; try apply Z; auto.
  - destruct H as [H1 E1], H0 as [H2 E2]. split; [lia|]. rewrite E1, E2. now apply J.
  - destruct H as [H1 E1], H0 as [H2 E2]. split; [lia|]. rewrite (suffix_groups _ _ _ s0), E1, E2. now apply J.
  - destruct H as [H1 E1]. split; [lia|]. rewrite E1. replace (n1 - n) with (S (n1 - S n)) by lia. reflexivity.
  - rewrite (escape_groups _ _ e). apply Z.
Qed.
Theorem C129_groups s p : re_compile s = Parsed p -> group_numbers (pt_re p) = seq 1 (pt_groups p).
Proof. intros H. apply C129_reads in H as (t & _ & H). apply (proj1 numbered) in H as [_ ->]. now rewrite Nat.sub_0_r. Qed.

(** What replaces a match is read as its grammar says; [n]: the number of groups. *)
Definition no_digit (s : str) : Prop := forall c r, s = c :: r -> ~ digit c.
Inductive Template (n : nat) : str -> list part -> Prop :=
| tpl_end : Template n [] []
| tpl_char c t l : c <> 92%N -> Template n t l -> Template n (c :: t) (PText [c] :: l)
| tpl_group c t l : digit c -> c <> 48%N -> no_digit t -> number [c] <= n -> Template n t l -> Template n (u "\" ++ [c] ++ t) (PGroup (number [c]) :: l)
| tpl_group2 c d t l : digit c -> c <> 48%N -> digit d -> no_digit t -> number [c; d] <= n -> Template n t l ->
    Template n (u "\" ++ [c; d] ++ t) (PGroup (number [c; d]) :: l)
| tpl_backslash t l : Template n t l -> Template n (u "\\" ++ t) (PText (u "\") :: l)
| tpl_control c x t l : In (c, x) controls -> Template n t l -> Template n (u "\" ++ [c] ++ t) (PText [x] :: l)
| tpl_other c t l : ~ letter c -> ~ digit c -> c <> 92%N -> Template n t l -> Template n (u "\" ++ [c] ++ t) (PText (u "\" ++ [c]) :: l).
Definition tail_parts (f n : nat) (p : part) (r : str) : parsed (list part) := pdo l <- parse_template f n r ;; Parsed (p :: l).
Definition group_part (f n k : nat) (r : str) : parsed (list part) := if k <=? n then tail_parts f n (PGroup k) r else BadPattern.
Lemma template_eq f n c r : parse_template (S (S f)) n (c :: r) =
  if N.eqb c 92 then
    match r with
    | [] => BadPattern
    | d :: t =>
        if N.eqb d 48 then Unsupported
        else if ascii_number d then
          match t with
          | e :: t' => if ascii_number e then (match t' with x :: _ => if ascii_number x then Unsupported else group_part (S f) n (number [d; e]) t' | [] => group_part (S f) n (number [d; e]) t' end)
                       else group_part (S f) n (number [d]) t
          | [] => group_part (S f) n (number [d]) t
          end
        else if N.eqb d 103 then Unsupported
        else if N.eqb d 92 then tail_parts (S f) n (PText [92%N]) t
        else match control d with
             | Some x => tail_parts (S f) n (PText [x]) t
             | None => if ascii_letter d then BadPattern else tail_parts (S f) n (PText [92%N; d]) t
             end
    end
  else tail_parts (S f) n (PText [c]) r.
Proof.
  destruct (N.eqb_spec c 92) as [->|Hc].
  - destruct r as [|d t]; [reflexivity|]. remember (S f) as g. cbn [parse_template]. destruct (N.eqb d 48); [reflexivity|]. destruct (ascii_number d); [|reflexivity].
    assert (N1 : number [d] = N.to_nat (d - 48)) by reflexivity. assert (N2 : forall e, number [d; e] = N.to_nat (d - 48) * 10 + N.to_nat (e - 48)) by (intros e; unfold number; cbn [fold_left]; lia).
    unfold group_part, tail_parts. destruct t as [|e t].
    + rewrite N1. destruct (_ <=? n); [|reflexivity]. subst g. reflexivity.
    + destruct (ascii_number e) eqn:Ee.
      * rewrite N2. destruct t as [|x t].
        -- destruct (_ <=? n); [|reflexivity]. subst g. reflexivity.
        -- replace (length (x :: t) =? length (e :: x :: t)) with false by (symmetry; apply Nat.eqb_neq; cbn [length]; lia). cbn [negb]. rewrite Bool.andb_true_r. reflexivity.
      * rewrite Ee, N1. reflexivity.
  - remember (S f) as g. cbn [parse_template]. unfold tail_parts. no_literal.
Qed.
Lemma tail_ok f n p r l : tail_parts f n p r = Parsed l <-> exists l', parse_template f n r = Parsed l' /\ l = p :: l'.
Proof.
  unfold tail_parts. destruct (parse_template f n r) as [l'| |]; cbn [pbind]; split; try discriminate; intros H.
  - injection H as <-. eauto.
  - destruct H as (l2 & [= ->] & ->). reflexivity.
  - destruct H as (l2 & [=] & _).
  - destruct H as (l2 & [=] & _).
Qed.
Lemma group_ok f n k r l : group_part f n k r = Parsed l <-> k <= n /\ tail_parts f n (PGroup k) r = Parsed l.
Proof. unfold group_part. destruct (Nat.leb_spec k n); split; try tauto; [discriminate|lia]. Qed.
Lemma no_digit_spec s : no_digit s <-> match s with x :: _ => ascii_number x = false | [] => True end.
Proof.
  unfold no_digit. destruct s as [|x s]; split; auto; intros H.
  - intros c r [=].
  - destruct (ascii_number x) eqn:E; [|reflexivity]. apply digit_spec in E. destruct (H x s eq_refl E).
  - intros c r [= <- <-] K. apply digit_spec in K. congruence.
Qed.
Lemma digit_not_letter c : digit c -> ~ letter c.
Proof. unfold digit, letter. lia. Qed.
Lemma control_letter c x : In (c, x) controls -> letter c /\ c <> 103%N.
Proof. unfold controls. cbn [In]. intros H. unfold letter. repeat (destruct H as [H|H]; [injection H as <- <-; lia|]). contradiction. Qed.
Theorem C129_template n s l : parse_template (S (length s)) n s = Parsed l <-> Template n s l.
Proof.
  split.
  - assert (G : forall f s l, parse_template f n s = Parsed l -> length s < f -> Template n s l); [|intros H; apply (G _ _ _ H); lia].
    induction f as [|f IH]; [discriminate|]. clear s l. intros s l H L.
    destruct s as [|c r]; [injection H as <-; constructor|]. destruct f as [|f]; [cbn [length] in L; lia|]. rewrite template_eq in H. cbn [length] in L.
    destruct (N.eqb_spec c 92) as [->|Hc].
    2:{ apply tail_ok in H as (l' & H & ->). apply tpl_char; [exact Hc|]. apply IH; [exact H|lia]. }
    destruct r as [|d t]; [discriminate|]. cbn [length] in L. destruct (N.eqb_spec d 48) as [|D1]; [discriminate|]. destruct (ascii_number d) eqn:Ed.
    { apply digit_spec in Ed. destruct t as [|e t].
      - apply group_ok in H as [K H]. apply tail_ok in H as (l' & H & ->). apply tpl_group; auto; [now apply no_digit_spec|]. apply IH; [exact H|cbn [length]; lia].
      - cbn [length] in L. destruct (ascii_number e) eqn:Ee.
        + apply digit_spec in Ee. assert (Q : no_digit t /\ group_part (S f) n (number [d; e]) t = Parsed l).
          { rewrite no_digit_spec. destruct t as [|x t]; [auto|]. destruct (ascii_number x); [discriminate|auto]. }
          destruct Q as [Q1 Q2]. apply group_ok in Q2 as [K Q2]. apply tail_ok in Q2 as (l' & Q2 & ->). apply tpl_group2; auto. apply IH; [exact Q2|lia].
        + apply group_ok in H as [K H]. apply tail_ok in H as (l' & H & ->). apply tpl_group; auto; [now apply no_digit_spec|]. apply IH; [exact H|cbn [length]; lia]. }
    destruct (N.eqb_spec d 103) as [|D2]; [discriminate|]. destruct (N.eqb_spec d 92) as [->|D3].
    { apply tail_ok in H as (l' & H & ->). apply (tpl_backslash n t). apply IH; [exact H|lia]. }
    destruct (control d) as [x|] eqn:Ex.
    { apply tail_ok in H as (l' & H & ->). apply tpl_control; [now apply control_spec|]. apply IH; [exact H|lia]. }
    destruct (ascii_letter d) eqn:El; [discriminate|]. apply tail_ok in H as (l' & H & ->).
    apply tpl_other; auto; [now apply not_letter| |apply IH; [exact H|lia]]. intros K. apply digit_spec in K. congruence.
  - intros H. assert (G : forall f, length s < f -> parse_template f n s = Parsed l); [|apply G; lia].
    induction H as [|c t l Hc H IH|c t l H1 H2 H3 H4 H IH|c d t l H1 H2 H3 H4 H5 H IH|t l H IH|c x t l H1 H IH|c t l H1 H2 H3 H IH]; intros f Hf; (destruct f as [|f]; [lia|]); [reflexivity|..].
    all: rewrite ?app_length in Hf; cbn [length] in Hf.
    all: try change (length (u "\")) with 1 in Hf; try change (length (u "\\")) with 2 in Hf.
    all: destruct f as [|f]; [lia|].
    + rewrite template_eq. apply N.eqb_neq in Hc. rewrite Hc. apply tail_ok. exists l. split; [apply IH; lia|reflexivity].
    + change (u "\" ++ [c] ++ t) with (92%N :: c :: t). rewrite template_eq. cbn [N.eqb Pos.eqb]. apply N.eqb_neq in H2. apply digit_spec in H1. rewrite H2, H1.
      assert (K : group_part (S f) n (number [c]) t = Parsed (PGroup (number [c]) :: l)). { apply group_ok. split; [exact H4|]. apply tail_ok. exists l. split; [apply IH; lia|reflexivity]. }
      apply no_digit_spec in H3. destruct t as [|e t]; [exact K|]. now rewrite H3.
    + change (u "\" ++ [c; d] ++ t) with (92%N :: c :: d :: t). rewrite template_eq. cbn [N.eqb Pos.eqb]. apply N.eqb_neq in H2. apply digit_spec in H1, H3. rewrite H2, H1, H3.
      assert (K : group_part (S f) n (number [c; d]) t = Parsed (PGroup (number [c; d]) :: l)). { apply group_ok. split; [exact H5|]. apply tail_ok. exists l. split; [apply IH; lia|reflexivity]. }
      apply no_digit_spec in H4. destruct t as [|e t]; [exact K|]. now rewrite H4.
    + change (u "\\" ++ t) with (92%N :: 92%N :: t). rewrite template_eq. apply tail_ok. exists l. split; [apply IH; lia|reflexivity].
    + change (u "\" ++ [c] ++ t) with (92%N :: c :: t). rewrite template_eq. cbn [N.eqb Pos.eqb]. destruct (control_letter _ _ H1) as [L1 L2].
      assert (D : ascii_number c = false). { destruct (ascii_number c) eqn:E; [|reflexivity]. apply digit_spec, digit_not_letter in E. contradiction. }
      assert (E1 : N.eqb c 48 = false) by (apply N.eqb_neq; intros ->; unfold letter in L1; lia). assert (E2 : N.eqb c 92 = false) by (apply N.eqb_neq; intros ->; unfold letter in L1; lia).
      apply N.eqb_neq in L2. apply control_spec in H1. rewrite E1, D, L2, E2, H1. apply tail_ok. exists l. split; [apply IH; lia|reflexivity].
    + change (u "\" ++ [c] ++ t) with (92%N :: c :: t). rewrite template_eq. cbn [N.eqb Pos.eqb]. destruct (itself c H1 H2) as (_ & -> & _ & _ & _ & _ & ->).
      assert (D : ascii_number c = false). { destruct (ascii_number c) eqn:E; [|reflexivity]. apply digit_spec in E. contradiction. }
      assert (E1 : N.eqb c 48 = false) by (apply N.eqb_neq; intros ->; unfold digit in H2; lia). assert (E3 : N.eqb c 103 = false) by (apply N.eqb_neq; intros ->; unfold letter in H1; lia).
      apply N.eqb_neq in H3. rewrite E1, D, E3, H3. apply tail_ok. exists l. split; [apply IH; lia|reflexivity].
Qed.
(** What [re.sub] makes of a text: the pattern is one of the grammar, and so is the template, and
    what is found is replaced by the parts of the template. *)
Theorem C129_sub sp wd dg fold pat template s r : re_sub sp wd dg fold pat template s = Parsed r <->
  exists p t, Pattern pat p /\ Template (pt_groups p) template t /\ r = replace_found s t 0 (re_finditer sp wd dg fold p s).
Proof.
  unfold re_sub. split.
  - destruct (re_compile pat) as [p| |] eqn:E; try discriminate. cbn [pbind]. destruct (parse_template _ _ template) as [t| |] eqn:Et; try discriminate. intros [= <-].
    exists p, t. repeat split; [now apply C129_reads|now apply C129_template].
  - intros (p & t & H1 & H2 & ->). apply C129_reads in H1. apply C129_template in H2. rewrite H1. cbn [pbind]. rewrite H2. reflexivity.
Qed.

(** The pattern for DOIs of fix_jats_xml.py L80 is in the grammar, with one group; so is a
    template for file names (utils/regex.py L33); a range the wrong way round and a group that
    does not exist are not. *)
Example C129_ex : exists p, Pattern (u "\b(10\.\d{4,}(?:\.\d{1,})*/.+)") p /\ pt_ic p = false /\ pt_groups p = 1 /\
  pt_re p = RSeq (RBound false) (RSeq (RGroup 1 (RSeq (RChar false [ILit 49%N]) (RSeq (RChar false [ILit 48%N]) (RSeq (RChar false [ILit 46%N])
    (RSeq (RRep true 4 None (RChar false [IKind KDigit false])) (RSeq (RRep true 0 None (RSeq (RChar false [ILit 46%N]) (RSeq (RRep true 1 None (RChar false [IKind KDigit false])) REmpty)))
    (RSeq (RChar false [ILit 47%N]) (RSeq (RRep true 1 None (RChar true [ILit 10%N])) REmpty)))))))) REmpty).
Proof. eexists. split; [apply C129_reads; vm_compute; reflexivity|]. repeat split. Qed.
Example C129_ex_template : Template 1 (u "\1.xml") [PGroup 1; PText (u "."); PText (u "x"); PText (u "m"); PText (u "l")] /\ ~ (exists l, Template 1 (u "\2") l) /\ ~ (exists p, Pattern (u "[z-a]") p) /\ ~ (exists p, Pattern (u "a**") p).
Proof.
  split; [apply C129_template; vm_compute; reflexivity|]. split; [intros (l & H); apply C129_template in H; vm_compute in H; discriminate|].
  split; intros (p & H); apply C129_reads in H; vm_compute in H; discriminate.
Qed.

Print Assumptions C129_reads.
Print Assumptions C129_unique.
Print Assumptions C129_groups.
Print Assumptions C129_template.
Print Assumptions C129_sub.
