(** C117: reading JSON, against the grammar of JSON. *)
From Verif Require Import Base ModelWordMatch ModelTarget ModelTargets ModelJson.
Open Scope list_scope.
Open Scope nat_scope.

(* ------------------------------------------------------------------ *)
(** ** The grammar *)
Definition blank (s : str) : Prop := forall c, In c s -> c = 32%N \/ c = 9%N \/ c = 10%N \/ c = 13%N.
Definition quote : str := [34%N].
Definition backslash : str := [92%N].
(** what the characters after a backslash stand for *)
Definition escapes : list (N * N) := [(34, 34); (92, 92); (47, 47); (98, 8); (102, 12); (110, 10); (114, 13); (116, 9)]%N.
(** the four digits of a number below 65536, in either case *)
Definition hex_chars : list (N * N) :=
  [(48, 0); (49, 1); (50, 2); (51, 3); (52, 4); (53, 5); (54, 6); (55, 7); (56, 8); (57, 9);
   (97, 10); (98, 11); (99, 12); (100, 13); (101, 14); (102, 15); (65, 10); (66, 11); (67, 12); (68, 13); (69, 14); (70, 15)]%N.
Inductive chars : str -> str -> Prop :=
| ch_end : chars [] []
| ch_plain c s t : (32 <= c)%N -> c <> 34%N -> c <> 92%N -> chars s t -> chars (c :: s) (c :: t)
| ch_escape e c s t : In (e, c) escapes -> chars s t -> chars (c :: s) (backslash ++ e :: t)
| ch_hex a b d f va vb vd vf x s t : In (a, va) hex_chars -> In (b, vb) hex_chars -> In (d, vd) hex_chars -> In (f, vf) hex_chars ->
    x = (4096 * va + 256 * vb + 16 * vd + vf)%N -> (x < 55296 \/ 57343 < x)%N -> chars s t ->
    chars (x :: s) (backslash ++ u "u" ++ a :: b :: d :: f :: t).
Definition digits (s : str) : Prop := s <> [] /\ forall c, In c s -> (48 <= c <= 57)%N.
(** an integer, a fraction or none, an exponent or none *)
Definition number_text (s : str) : Prop :=
  exists sign whole frac expo, s = sign ++ whole ++ frac ++ expo /\
    (sign = [] \/ sign = u "-") /\
    digits whole /\ (whole = u "0" \/ hd_error whole <> Some 48%N) /\
    (frac = [] \/ exists d, frac = u "." ++ d /\ digits d) /\
    (expo = [] \/ exists e sg d, expo = e ++ sg ++ d /\ (e = u "e" \/ e = u "E") /\ (sg = [] \/ sg = u "+" \/ sg = u "-") /\ digits d).

Inductive spells : json -> str -> Prop :=
| sp_null : spells JNull (u "null")
| sp_true : spells (JBool true) (u "true")
| sp_false : spells (JBool false) (u "false")
| sp_number t : number_text t -> spells (JNum t) t
| sp_text s t : chars s t -> spells (JStr s) (quote ++ t ++ quote)
| sp_no_elements w : blank w -> spells (JArr []) (u "[" ++ w ++ u "]")
| sp_elements l t : spells_elements l t -> spells (JArr l) (u "[" ++ t ++ u "]")
| sp_no_members w : blank w -> spells (JObj []) (u "{" ++ w ++ u "}")
| sp_members l t : spells_members l t -> spells (JObj l) (u "{" ++ t ++ u "}")
with spells_elements : list json -> str -> Prop :=
| se_last v w1 t w2 : blank w1 -> spells v t -> blank w2 -> spells_elements [v] (w1 ++ t ++ w2)
| se_more v l w1 t w2 t' : blank w1 -> spells v t -> blank w2 -> spells_elements l t' -> spells_elements (v :: l) (w1 ++ t ++ w2 ++ u "," ++ t')
with spells_members : list (str * json) -> str -> Prop :=
| sm_last k v w1 tk w2 w3 t w4 : blank w1 -> chars k tk -> blank w2 -> blank w3 -> spells v t -> blank w4 ->
    spells_members [(k, v)] (w1 ++ quote ++ tk ++ quote ++ w2 ++ u ":" ++ w3 ++ t ++ w4)
| sm_more k v l w1 tk w2 w3 t w4 t' : blank w1 -> chars k tk -> blank w2 -> blank w3 -> spells v t -> blank w4 -> spells_members l t' ->
    spells_members ((k, v) :: l) (w1 ++ quote ++ tk ++ quote ++ w2 ++ u ":" ++ w3 ++ t ++ w4 ++ u "," ++ t').
(** a value with white space around it *)
Definition json_text (v : json) (s : str) : Prop := exists w1 t w2, s = w1 ++ t ++ w2 /\ blank w1 /\ spells v t /\ blank w2.

(* ------------------------------------------------------------------ *)
(** ** White space *)
Lemma jws_spec c : jws c = true <-> c = 32%N \/ c = 9%N \/ c = 10%N \/ c = 13%N.
Proof. unfold jws. rewrite !orb_true_iff, !N.eqb_eq. tauto. Qed.
Lemma skip_blank w s : blank w -> skip_ws (w ++ s) = skip_ws s.
Proof.
  induction w as [|c w IH]; intros H; [reflexivity|]. simpl.
  rewrite (proj2 (jws_spec c) (H c (or_introl eq_refl))). apply IH. intros x Hx. apply H. right. exact Hx.
Qed.
Lemma skip_ws_split s : exists w, blank w /\ s = w ++ skip_ws s.
Proof.
  induction s as [|c s (w & Hw & E)]; [exists []; split; [intros c []|reflexivity]|]. simpl.
  destruct (jws c) eqn:Ec.
  - exists (c :: w). split; [intros x [<- | Hx]; [apply jws_spec, Ec|apply Hw, Hx]|]. simpl. f_equal. exact E.
  - exists []. split; [intros x []|reflexivity].
Qed.
Lemma skip_ws_id c s : jws c = false -> skip_ws (c :: s) = c :: s.
Proof. intros H. simpl. rewrite H. reflexivity. Qed.
Lemma skip_ws_length s : length (skip_ws s) <= length s.
Proof. destruct (skip_ws_split s) as (w & _ & E). rewrite E at 2. rewrite app_length. lia. Qed.

(* ------------------------------------------------------------------ *)
(** ** Texts *)
Lemma escape_spec e c : escape e = Some c <-> In (e, c) escapes.
Proof.
  unfold escape, escapes. split.
  - destruct (N.eqb_spec e 34); [subst; intros [= <-]; simpl; tauto|].
    destruct (N.eqb_spec e 92); [subst; intros [= <-]; simpl; tauto|].
    destruct (N.eqb_spec e 47); [subst; intros [= <-]; simpl; tauto|]. simpl orb. cbv iota.
    destruct (N.eqb_spec e 98); [subst; intros [= <-]; simpl; tauto|].
    destruct (N.eqb_spec e 102); [subst; intros [= <-]; simpl; tauto|].
    destruct (N.eqb_spec e 110); [subst; intros [= <-]; simpl; tauto|].
    destruct (N.eqb_spec e 114); [subst; intros [= <-]; simpl; tauto|].
    destruct (N.eqb_spec e 116); [subst; intros [= <-]; simpl; tauto|]. discriminate.
  - simpl. intros [E | [E | [E | [E | [E | [E | [E | [E | []]]]]]]]]; injection E as <- <-; reflexivity.
Qed.
Lemma hex_digit_spec c v : hex_digit c = Some v <-> In (c, v) hex_chars.
Proof.
  unfold hex_digit. split.
  - destruct (N.leb_spec 48 c), (N.leb_spec c 57); simpl andb; cbv iota.
    { intros [= <-]. assert (E : (c = 48 \/ c = 49 \/ c = 50 \/ c = 51 \/ c = 52 \/ c = 53 \/ c = 54 \/ c = 55 \/ c = 56 \/ c = 57)%N) by lia.
      repeat destruct E as [-> | E]; try subst; simpl; tauto. }
    all: destruct (N.leb_spec 97 c), (N.leb_spec c 102); simpl andb; cbv iota;
      try (intros [= <-]; assert (E : (c = 97 \/ c = 98 \/ c = 99 \/ c = 100 \/ c = 101 \/ c = 102)%N) by lia;
           repeat destruct E as [-> | E]; try subst; simpl; tauto).
    all: destruct (N.leb_spec 65 c), (N.leb_spec c 70); simpl andb; cbv iota;
      try (intros [= <-]; assert (E : (c = 65 \/ c = 66 \/ c = 67 \/ c = 68 \/ c = 69 \/ c = 70)%N) by lia;
           repeat destruct E as [-> | E]; try subst; simpl; tauto).
    all: intros; try discriminate; lia.
  - simpl. intros H. repeat (destruct H as [E | H]; [injection E as <- <-; reflexivity|]). destruct H.
Qed.

Lemma p_chars_complete s t rest : chars s t -> p_chars (t ++ quote ++ rest) = Some (s, rest).
Proof.
  induction 1 as [|c s t H1 H2 H3 H IH|e c s t H1 H IH|a b d f va vb vd vf x s t Ha Hb Hd Hf -> Hx H IH]; [reflexivity| | |].
  - change ((c :: t) ++ quote ++ rest) with (c :: (t ++ quote ++ rest)). cbn [p_chars].
    rewrite (proj2 (N.eqb_neq c 34) H2), (proj2 (N.eqb_neq c 92) H3), (proj2 (N.ltb_ge c 32) H1), IH. reflexivity.
  - change ((backslash ++ e :: t) ++ quote ++ rest) with (92%N :: e :: (t ++ quote ++ rest)). cbn [p_chars].
    change (N.eqb 92 34) with false. change (N.eqb 92 92) with true. cbv iota.
    assert (N.eqb e 117 = false) as ->.
    { simpl in H1. repeat (destruct H1 as [E | H1]; [injection E as <- _; reflexivity|]). destruct H1. }
    rewrite (proj2 (escape_spec e c) H1), IH. reflexivity.
  - change ((backslash ++ u "u" ++ a :: b :: d :: f :: t) ++ quote ++ rest) with (92%N :: 117%N :: a :: b :: d :: f :: (t ++ quote ++ rest)).
    cbn [p_chars]. change (N.eqb 92 34) with false. change (N.eqb 92 92) with true. change (N.eqb 117 117) with true. cbv iota.
    unfold hex4. rewrite (proj2 (hex_digit_spec a va) Ha), (proj2 (hex_digit_spec b vb) Hb), (proj2 (hex_digit_spec d vd) Hd), (proj2 (hex_digit_spec f vf) Hf), IH.
    replace (((va * 16 + vb) * 16 + vd) * 16 + vf)%N with (4096 * va + 256 * vb + 16 * vd + vf)%N by lia.
    assert (surrogate (4096 * va + 256 * vb + 16 * vd + vf) = false) as ->; [|reflexivity].
    unfold surrogate. apply andb_false_iff. rewrite N.leb_gt, N.leb_gt. exact Hx.
Qed.
Lemma with_char_inv x r s rest : with_char x r = Some (s, rest) -> exists s', s = x :: s' /\ r = Some (s', rest).
Proof. destruct r as [[s' r']|]; [|discriminate]. intros [= <- <-]. exists s'. split; reflexivity. Qed.
Lemma p_chars_sound n : forall s v rest, length s <= n -> p_chars s = Some (v, rest) -> exists t, chars v t /\ s = t ++ quote ++ rest.
Proof.
  induction n as [|n IH]; intros [|c r] v rest L H; try discriminate; [simpl in L; lia|]. simpl in L. cbn [p_chars] in H.
  destruct (N.eqb_spec c 34) as [-> | N1].
  { injection H as <- <-. exists []. split; [constructor|reflexivity]. }
  destruct (N.eqb_spec c 92) as [-> | N2].
  - destruct r as [|e r1]; [discriminate|]. simpl in L. destruct (N.eqb_spec e 117) as [-> | N3].
    + destruct r1 as [|a [|b [|d [|f r2]]]]; try discriminate. unfold hex4 in H.
      destruct (hex_digit a) as [va|] eqn:Ea; [|discriminate].
      destruct (hex_digit b) as [vb|] eqn:Eb; [|discriminate].
      destruct (hex_digit d) as [vd|] eqn:Ed; [|discriminate].
      destruct (hex_digit f) as [vf|] eqn:Ef; [|discriminate].
      destruct (surrogate _) eqn:Es; [discriminate|].
      destruct (with_char_inv _ _ _ _ H) as (v' & -> & H').
      destruct (IH r2 v' rest) as (t & Ht & ->); [simpl in L; lia|exact H'|].
      exists (backslash ++ u "u" ++ a :: b :: d :: f :: t). split; [|reflexivity].
      apply hex_digit_spec in Ea, Eb, Ed, Ef.
      apply (ch_hex a b d f va vb vd vf); try assumption; [lia|].
      unfold surrogate in Es. apply andb_false_iff in Es. rewrite N.leb_gt, N.leb_gt in Es. exact Es.
    + destruct (escape e) as [x|] eqn:Ee; [|discriminate].
      destruct (with_char_inv _ _ _ _ H) as (v' & -> & H').
      destruct (IH r1 v' rest) as (t & Ht & ->); [lia|exact H'|].
      exists (backslash ++ e :: t). split; [|reflexivity]. constructor; [apply escape_spec, Ee|exact Ht].
  - destruct (N.ltb_spec c 32) as [L2|L2]; [discriminate|].
    destruct (with_char_inv _ _ _ _ H) as (v' & -> & H').
    destruct (IH r v' rest) as (t & Ht & ->); [lia|exact H'|].
    exists (c :: t). split; [|reflexivity]. constructor; assumption.
Qed.

(* ------------------------------------------------------------------ *)
(** ** Numbers *)
Lemma span_spec p s : s = fst (span p s) ++ snd (span p s) /\ (forall c, In c (fst (span p s)) -> p c = true) /\
  (forall c, hd_error (snd (span p s)) = Some c -> p c = false).
Proof.
  induction s as [|c s (E & H1 & H2)]; [repeat split; [intros c []|discriminate]|]. simpl. destruct (p c) eqn:Ec; simpl.
  - split; [f_equal; exact E|]. split; [intros x [<- | Hx]; [exact Ec|apply H1, Hx]|exact H2].
  - split; [reflexivity|]. split; [intros x []|intros x [= <-]; exact Ec].
Qed.
Lemma span_app p a b : (forall c, In c a -> p c = true) -> (forall c, hd_error b = Some c -> p c = false) -> span p (a ++ b) = (a, b).
Proof.
  intros Ha Hb. induction a as [|c a IH]; simpl.
  - destruct b as [|c b]; [reflexivity|]. simpl. rewrite (Hb c eq_refl). reflexivity.
  - rewrite (Ha c (or_introl eq_refl)), IH; [reflexivity|]. intros x Hx. apply Ha. right. exact Hx.
Qed.
Lemma jdigit_spec c : jdigit c = true <-> (48 <= c <= 57)%N.
Proof. unfold jdigit. rewrite andb_true_iff, !N.leb_le. tauto. Qed.
Lemma digits_spec s : nonempty s && forallb jdigit s = true <-> digits s.
Proof.
  unfold digits. rewrite andb_true_iff, forallb_forall. split; intros [H1 H2]; split.
  - destruct s; [discriminate|discriminate].
  - intros c Hc. apply jdigit_spec, H2, Hc.
  - destruct s; [contradiction|reflexivity].
  - intros c Hc. apply jdigit_spec, H2, Hc.
Qed.
Definition expo_text (expo : str) : Prop :=
  expo = [] \/ exists e sg d, expo = e ++ sg ++ d /\ (e = u "e" \/ e = u "E") /\ (sg = [] \/ sg = u "+" \/ sg = u "-") /\ digits d.
Lemma exponent_spec s : is_exponent s = true <-> expo_text s.
Proof.
  unfold expo_text. destruct s as [|e r]; [split; [left; reflexivity|reflexivity]|].
  unfold is_exponent. rewrite andb_true_iff, orb_true_iff, !N.eqb_eq. cbv zeta. rewrite digits_spec. split.
  - intros [He Hd]. right. destruct r as [|x r]; [destruct Hd as [H _]; contradiction|].
    assert (Ee : [e] = u "e" \/ [e] = u "E") by (destruct He as [-> | ->]; [left|right]; reflexivity).
    destruct (N.eqb_spec x 43) as [-> |N1].
    { exists [e], (u "+"), r. split; [reflexivity|]. split; [exact Ee|]. split; [right; left; reflexivity|exact Hd]. }
    destruct (N.eqb_spec x 45) as [-> |N2].
    { exists [e], (u "-"), r. split; [reflexivity|]. split; [exact Ee|]. split; [right; right; reflexivity|exact Hd]. }
    exists [e], [], (x :: r). split; [reflexivity|]. split; [exact Ee|]. split; [left; reflexivity|exact Hd].
  - intros [E|(e' & sg & d & E & He & Hsg & Hd)]; [discriminate|].
    assert (He' : (e = 101 \/ e = 69)%N /\ r = sg ++ d).
    { destruct He as [-> | ->]; injection E as -> ->; split; auto. }
    destruct He' as [He' ->]. split; [exact He'|].
    destruct Hsg as [-> | [-> | ->]]; [|exact Hd|exact Hd]. destruct d as [|x d]; [exact Hd|].
    assert (D : (48 <= x <= 57)%N) by (apply Hd; left; reflexivity).
    change (digits (if N.eqb x 43 || N.eqb x 45 then d else x :: d)).
    rewrite (proj2 (N.eqb_neq x 43)), (proj2 (N.eqb_neq x 45)) by lia. exact Hd.
Qed.
Definition frac_text (frac : str) : Prop := frac = [] \/ exists d, frac = u "." ++ d /\ digits d.
Lemma expo_head s c : expo_text s -> hd_error s = Some c -> c = 101%N \/ c = 69%N.
Proof. intros [-> |(e & sg & d & -> & [-> | ->] & _)]; [discriminate| |]; intros [= <-]; auto. Qed.
Lemma fraction_spec s : is_fraction s = true <-> exists frac expo, s = frac ++ expo /\ frac_text frac /\ expo_text expo.
Proof.
  split.
  - intros H. destruct s as [|x r]; [exists [], []; repeat split; left; reflexivity|]. unfold is_fraction in H.
    destruct (N.eqb_spec x 46) as [-> |N1].
    + destruct (span jdigit r) as [d e] eqn:Es. pose proof (span_spec jdigit r) as (E1 & E2 & _). rewrite Es in E1, E2. simpl in E1, E2.
      apply andb_true_iff in H. destruct H as [H1 H2]. apply exponent_spec in H2.
      exists (46%N :: d), e. split; [rewrite E1; reflexivity|]. split; [|exact H2]. right. exists d. split; [reflexivity|].
      apply digits_spec. rewrite H1. apply forallb_forall. exact E2.
    + apply exponent_spec in H. exists [], (x :: r). split; [reflexivity|]. split; [left; reflexivity|exact H].
  - intros (frac & expo & -> & [-> |(d & -> & Hd)] & He).
    + simpl app. destruct expo as [|x r]; [reflexivity|]. unfold is_fraction.
      destruct (N.eqb_spec x 46) as [-> |N1]; [|apply exponent_spec, He].
      destruct (expo_head _ _ He eq_refl) as [E|E]; discriminate.
    + change ((u "." ++ d) ++ expo) with (46%N :: (d ++ expo)). unfold is_fraction. change (N.eqb 46 46) with true. cbv iota.
      rewrite span_app.
      * apply digits_spec in Hd. apply andb_true_iff in Hd. destruct Hd as [-> _]. apply exponent_spec, He.
      * intros c Hc. apply jdigit_spec, Hd, Hc.
      * intros c Hc. destruct (expo_head _ _ He Hc) as [-> | ->]; reflexivity.
Qed.
Lemma tail_head frac expo c : frac_text frac -> expo_text expo -> hd_error (frac ++ expo) = Some c -> jdigit c = false.
Proof.
  intros [-> |(d & -> & _)] He H; [|injection H as <-; reflexivity].
  destruct (expo_head _ _ He H) as [-> | ->]; reflexivity.
Qed.
Lemma number_spec s : is_number s = true <-> number_text s.
Proof.
  unfold number_text. split.
  - unfold is_number. intros H.
    assert (K : exists sign s', s = sign ++ s' /\ (sign = [] \/ sign = u "-") /\
              (let '(d, r) := span jdigit s' in match d with [] => false | x :: d' => (negb (N.eqb x 48) || match d' with [] => true | _ => false end) && is_fraction r end) = true).
    { destruct s as [|x r]; [exists [], []; repeat split; [left; reflexivity|exact H]|].
      destruct (N.eqb_spec x 45) as [-> |N1]; [exists (u "-"), r|exists [], (x :: r)]; repeat split; auto. }
    clear H. destruct K as (sign & s' & -> & Hs & H). pose proof (span_spec jdigit s') as (E1 & E2 & _).
    destruct (span jdigit s') as [d r] eqn:Es. simpl in E1, E2. destruct d as [|x d]; [discriminate|].
    apply andb_true_iff in H. destruct H as [H1 H2]. apply fraction_spec in H2. destruct H2 as (frac & expo & -> & Hf & He).
    exists sign, (x :: d), frac, expo. split; [rewrite E1; reflexivity|]. split; [exact Hs|].
    split; [split; [discriminate|intros c Hc; apply jdigit_spec, E2, Hc]|]. split; [|split; [exact Hf|exact He]].
    apply orb_true_iff in H1. destruct H1 as [H1|H1].
    + right. intros [= ->]. discriminate.
    + destruct d; [|discriminate]. destruct (N.eqb_spec x 48) as [-> |N1]; [left; reflexivity|right; intros [= ->]; contradiction].
  - intros (sign & whole & frac & expo & -> & Hs & Hw & Hz & Hf & He). unfold is_number. cbv zeta.
    assert (E : match sign ++ whole ++ frac ++ expo with x :: r => if N.eqb x 45 then r else sign ++ whole ++ frac ++ expo | [] => sign ++ whole ++ frac ++ expo end = whole ++ frac ++ expo).
    { destruct Hs as [-> | ->]; [|reflexivity]. destruct whole as [|x w]; [destruct Hw as [Hw _]; contradiction|].
      assert (D : (48 <= x <= 57)%N) by (apply Hw; left; reflexivity).
      change ((if N.eqb x 45 then w ++ frac ++ expo else x :: w ++ frac ++ expo) = x :: w ++ frac ++ expo).
      rewrite (proj2 (N.eqb_neq x 45)); [reflexivity|lia]. }
    match goal with |- context [span jdigit ?X] => replace X with (whole ++ frac ++ expo) by (symmetry; exact E) end. rewrite span_app; [|intros c Hc; apply jdigit_spec, Hw, Hc|intros c Hc; apply (tail_head frac expo); assumption].
    destruct whole as [|x w]; [destruct Hw as [Hw _]; contradiction|].
    apply andb_true_iff. split; [|apply fraction_spec; exists frac, expo; auto].
    destruct Hz as [Hz|Hz].
    + injection Hz as -> ->. reflexivity.
    + destruct (N.eqb_spec x 48) as [-> |N1]; [contradiction|reflexivity].
Qed.
Lemma number_chars t c : number_text t -> In c t -> number_char c = true.
Proof.
  intros (sign & whole & frac & expo & -> & Hs & Hw & _ & Hf & He) H.
  assert (D : forall d, digits d -> In c d -> number_char c = true).
  { intros d [_ Hd] Hc. unfold number_char. rewrite (proj2 (jdigit_spec c) (Hd c Hc)). reflexivity. }
  rewrite !in_app_iff in H. destruct H as [H|[H|[H|H]]].
  - destruct Hs as [-> | ->]; [destruct H|]. destruct H as [<- |[]]; reflexivity.
  - apply (D whole); assumption.
  - destruct Hf as [-> |(d & -> & Hd)]; [destruct H|]. apply in_app_iff in H. destruct H as [[<- |[]]|H]; [reflexivity|apply (D d); assumption].
  - destruct He as [-> |(e & sg & d & -> & Hee & Hsg & Hd)]; [destruct H|]. rewrite !in_app_iff in H. destruct H as [H|[H|H]].
    + destruct Hee as [-> | ->]; destruct H as [<- |[]]; reflexivity.
    + destruct Hsg as [-> | [-> | ->]]; [destruct H| |]; destruct H as [<- |[]]; reflexivity.
    + apply (D d); assumption.
Qed.
Lemma number_head t : number_text t -> exists c r, t = c :: r /\ (c = 45 \/ 48 <= c <= 57)%N.
Proof.
  intros (sign & whole & frac & expo & -> & [-> | ->] & Hw & _); [|eexists _, _; split; [reflexivity|left; reflexivity]].
  destruct whole as [|x w]; [destruct Hw as [Hw _]; contradiction|]. exists x, (w ++ frac ++ expo). split; [reflexivity|].
  right. apply Hw. left. reflexivity.
Qed.

(* ------------------------------------------------------------------ *)
(** ** Values *)
Scheme spells_mut := Induction for spells Sort Prop
  with spells_elements_mut := Induction for spells_elements Sort Prop
  with spells_members_mut := Induction for spells_members Sort Prop.
Combined Scheme spells_ind3 from spells_mut, spells_elements_mut, spells_members_mut.

(** a text that cannot go on a number *)
Definition ends_number (s : str) : Prop := forall c, hd_error s = Some c -> number_char c = false.
Lemma ends_number_blank w s : blank w -> ends_number s -> ends_number (w ++ s).
Proof.
  intros Hw Hs c Hc. destruct w as [|x w]; [apply Hs, Hc|]. injection Hc as ->.
  destruct (Hw c (or_introl eq_refl)) as [-> | [-> | [-> | ->]]]; reflexivity.
Qed.
(** values begin with a character of their own *)
Definition begins (s : str) (no : list N) : Prop := exists c r, s = c :: r /\ jws c = false /\ ~ In c no.
Lemma spells_begins v t : spells v t -> begins t [93; 125; 44; 58]%N.
Proof.
  assert (K : forall c r, jws c = false -> ~ In c [93; 125; 44; 58]%N -> begins (c :: r) [93; 125; 44; 58]%N) by (intros c r H1 H2; exists c, r; auto).
  destruct 1; try (apply K; [reflexivity|intros [E|[E|[E|[E|[]]]]]; discriminate E]).
  destruct (number_head t H) as (c & r & -> & Hc). apply K.
  - unfold jws. rewrite !orb_false_iff, !N.eqb_neq. lia.
  - intros [E|[E|[E|[E|[]]]]]; subst c; lia.
Qed.
Lemma begins_skip s no r : begins s no -> skip_ws (s ++ r) = s ++ r.
Proof. intros (c & t & -> & H & _). apply (skip_ws_id c (t ++ r)). exact H. Qed.
Lemma number_dispatch f t rest : number_text t -> ends_number rest -> p_value (S f) (t ++ rest) = Some (JNum t, rest).
Proof.
  intros Ht Hr. pose proof (number_head t Ht) as (c & r & E & Hc). rewrite E at 1.
  change ((c :: r) ++ rest) with (c :: (r ++ rest)). cbn [p_value].
  rewrite (proj2 (N.eqb_neq c 34)), (proj2 (N.eqb_neq c 91)), (proj2 (N.eqb_neq c 123)) by lia.
  assert (starts_with (u "null") (c :: r ++ rest) = false) as ->.
  { change (starts_with (u "null") (c :: r ++ rest)) with (N.eqb 110 c && starts_with (u "ull") (r ++ rest)). rewrite (proj2 (N.eqb_neq 110 c)) by lia. reflexivity. }
  assert (starts_with (u "true") (c :: r ++ rest) = false) as ->.
  { change (starts_with (u "true") (c :: r ++ rest)) with (N.eqb 116 c && starts_with (u "rue") (r ++ rest)). rewrite (proj2 (N.eqb_neq 116 c)) by lia. reflexivity. }
  assert (starts_with (u "false") (c :: r ++ rest) = false) as ->.
  { change (starts_with (u "false") (c :: r ++ rest)) with (N.eqb 102 c && starts_with (u "alse") (r ++ rest)). rewrite (proj2 (N.eqb_neq 102 c)) by lia. reflexivity. }
  change (c :: r ++ rest) with ((c :: r) ++ rest). rewrite <- E. rewrite span_app; [|intros x Hx; apply (number_chars t); assumption|exact Hr].
  rewrite (proj2 (number_spec t) Ht). reflexivity.
Qed.
Lemma p_elems_eq f s : p_elems (S f) s =
  match p_value f (skip_ws s) with
  | None => None
  | Some (v, r) =>
      match skip_ws r with
      | [] => None
      | x :: r' =>
          if N.eqb x 44 then option_map (fun y => (v :: fst y, snd y)) (p_elems f r')
          else if N.eqb x 93 then Some ([v], r') else None
      end
  end.
Proof. reflexivity. Qed.
Lemma p_members_eq f s : p_members (S f) s =
  match skip_ws s with
  | [] => None
  | q :: s1 =>
      if N.eqb q 34 then
        match p_chars s1 with
        | None => None
        | Some (k, s2) =>
            match skip_ws s2 with
            | [] => None
            | x :: s3 =>
                if N.eqb x 58 then
                  match p_value f (skip_ws s3) with
                  | None => None
                  | Some (v, r) =>
                      match skip_ws r with
                      | [] => None
                      | y :: r' =>
                          if N.eqb y 44 then option_map (fun z => ((k, v) :: fst z, snd z)) (p_members f r')
                          else if N.eqb y 125 then Some ([(k, v)], r') else None
                      end
                  end
                else None
            end
        end
      else None
  end.
Proof. reflexivity. Qed.
Lemma p_text_eq f r : p_value (S f) (34%N :: r) = option_map (fun x => (JStr (fst x), snd x)) (p_chars r).
Proof. reflexivity. Qed.
Lemma p_arr_eq f r : p_value (S f) (91%N :: r) =
  match skip_ws r with
  | [] => None
  | x :: r' => if N.eqb x 93 then Some (JArr [], r') else option_map (fun x => (JArr (fst x), snd x)) (p_elems f r)
  end.
Proof. reflexivity. Qed.
Lemma p_obj_eq f r : p_value (S f) (123%N :: r) =
  match skip_ws r with
  | [] => None
  | x :: r' => if N.eqb x 125 then Some (JObj [], r') else option_map (fun x => (JObj (fst x), snd x)) (p_members f r)
  end.
Proof. reflexivity. Qed.

Lemma elements_begin l t : spells_elements l t -> forall r, exists c r', skip_ws (t ++ r) = c :: r' /\ c <> 93%N.
Proof.
  intros H r. assert (K : forall v w t0 r0, blank w -> spells v t0 -> exists c r', skip_ws (w ++ t0 ++ r0) = c :: r' /\ c <> 93%N).
  { intros v w t0 r0 Hw Ht. rewrite skip_blank by exact Hw. pose proof (spells_begins v t0 Ht) as Hb.
    rewrite (begins_skip _ _ _ Hb). destruct Hb as (c & r' & -> & _ & Hn). exists c, (r' ++ r0). split; [reflexivity|].
    intros ->. apply Hn. left. reflexivity. }
  destruct H; rewrite <- !app_assoc; eapply K; eassumption.
Qed.
Lemma members_begin l t : spells_members l t -> forall r, exists r', skip_ws (t ++ r) = 34%N :: r'.
Proof. intros H r. destruct H; rewrite <- !app_assoc; rewrite skip_blank by assumption; eexists; reflexivity. Qed.

Lemma complete3 :
  (forall v t, spells v t -> forall f rest, 2 * length t <= f -> ends_number rest -> p_value f (t ++ rest) = Some (v, rest)) /\
  (forall l t, spells_elements l t -> forall f rest, 2 * length t + 1 <= f -> p_elems f (t ++ u "]" ++ rest) = Some (l, rest)) /\
  (forall l t, spells_members l t -> forall f rest, 2 * length t + 1 <= f -> p_members f (t ++ u "}" ++ rest) = Some (l, rest)).
Proof.
  assert (Ec : forall c r, number_char c = false -> ends_number (c :: r)) by (intros c r H x [= <-]; exact H).
  apply spells_ind3.
  - intros [|f] rest L _; [simpl in L; lia|]. reflexivity.
  - intros [|f] rest L _; [simpl in L; lia|]. reflexivity.
  - intros [|f] rest L _; [simpl in L; lia|]. reflexivity.
  - intros t Ht [|f] rest L Hr; [|apply number_dispatch; assumption].
    destruct (number_head t Ht) as (c & r & -> & _). simpl in L. lia.
  - intros s t Ht [|f] rest L _; [simpl in L; lia|].
    replace ((quote ++ t ++ quote) ++ rest) with (34%N :: (t ++ quote ++ rest)) by (simpl; rewrite <- app_assoc; reflexivity).
    rewrite p_text_eq, (p_chars_complete s t rest Ht). reflexivity.
  - intros w Hw [|f] rest L _; [simpl in L; lia|].
    replace ((u "[" ++ w ++ u "]") ++ rest) with (91%N :: (w ++ u "]" ++ rest)) by (simpl; rewrite <- app_assoc; reflexivity).
    rewrite p_arr_eq, skip_blank by exact Hw. reflexivity.
  - intros l t Ht IH [|f] rest L _; [simpl in L; lia|].
    assert (L' : 2 * length t + 1 <= f) by (rewrite !app_length in L; change (length (u "[")) with 1 in L; change (length (u "]")) with 1 in L; lia).
    replace ((u "[" ++ t ++ u "]") ++ rest) with (91%N :: (t ++ u "]" ++ rest)) by (simpl; rewrite <- app_assoc; reflexivity).
    rewrite p_arr_eq. destruct (elements_begin l t Ht (u "]" ++ rest)) as (c & r' & -> & Hc).
    rewrite (proj2 (N.eqb_neq c 93) Hc), IH by exact L'. reflexivity.
  - intros w Hw [|f] rest L _; [simpl in L; lia|].
    replace ((u "{" ++ w ++ u "}") ++ rest) with (123%N :: (w ++ u "}" ++ rest)) by (simpl; rewrite <- app_assoc; reflexivity).
    rewrite p_obj_eq, skip_blank by exact Hw. reflexivity.
  - intros l t Ht IH [|f] rest L _; [simpl in L; lia|].
    assert (L' : 2 * length t + 1 <= f) by (rewrite !app_length in L; change (length (u "{")) with 1 in L; change (length (u "}")) with 1 in L; lia).
    replace ((u "{" ++ t ++ u "}") ++ rest) with (123%N :: (t ++ u "}" ++ rest)) by (simpl; rewrite <- app_assoc; reflexivity).
    rewrite p_obj_eq. destruct (members_begin l t Ht (u "}" ++ rest)) as (r' & ->).
    change (N.eqb 34 125) with false. cbv iota. rewrite IH by exact L'. reflexivity.
  - intros v w1 t w2 H1 Ht IH H2 [|f] rest L; [lia|].
    rewrite !app_length in L. rewrite <- !app_assoc, p_elems_eq, skip_blank by exact H1.
    rewrite (begins_skip _ _ _ (spells_begins v t Ht)). rewrite IH; [|lia|apply ends_number_blank; [exact H2|apply Ec; reflexivity]].
    rewrite skip_blank by exact H2. reflexivity.
  - intros v l w1 t w2 t' H1 Ht IH H2 Hl IHl [|f] rest L; [lia|].
    rewrite !app_length in L. change (length (u ",")) with 1 in L. rewrite <- !app_assoc, p_elems_eq, skip_blank by exact H1.
    rewrite (begins_skip _ _ _ (spells_begins v t Ht)). rewrite IH; [|lia|apply ends_number_blank; [exact H2|apply Ec; reflexivity]].
    rewrite skip_blank by exact H2. change (u "," ++ t' ++ u "]" ++ rest) with (44%N :: (t' ++ u "]" ++ rest)).
    rewrite skip_ws_id by reflexivity. change (N.eqb 44 44) with true. cbv iota. rewrite IHl by lia. reflexivity.
  - intros k v w1 tk w2 w3 t w4 H1 Hk H2 H3 Ht IH H4 [|f] rest L; [lia|].
    rewrite !app_length in L. rewrite <- !app_assoc, p_members_eq, skip_blank by exact H1.
    change (quote ++ tk ++ quote ++ w2 ++ u ":" ++ w3 ++ t ++ w4 ++ u "}" ++ rest) with (34%N :: (tk ++ quote ++ (w2 ++ u ":" ++ w3 ++ t ++ w4 ++ u "}" ++ rest))).
    rewrite skip_ws_id by reflexivity. change (N.eqb 34 34) with true. cbv iota. rewrite (p_chars_complete k tk _ Hk).
    rewrite skip_blank by exact H2. change (u ":" ++ w3 ++ t ++ w4 ++ u "}" ++ rest) with (58%N :: (w3 ++ t ++ w4 ++ u "}" ++ rest)).
    rewrite skip_ws_id by reflexivity. change (N.eqb 58 58) with true. cbv iota.
    rewrite skip_blank by exact H3. rewrite (begins_skip _ _ _ (spells_begins v t Ht)).
    rewrite IH; [|lia|apply ends_number_blank; [exact H4|apply Ec; reflexivity]].
    rewrite skip_blank by exact H4. reflexivity.
  - intros k v l w1 tk w2 w3 t w4 t' H1 Hk H2 H3 Ht IH H4 Hl IHl [|f] rest L; [lia|].
    rewrite !app_length in L. change (length (u ",")) with 1 in L. rewrite <- !app_assoc, p_members_eq, skip_blank by exact H1.
    change (quote ++ tk ++ quote ++ w2 ++ u ":" ++ w3 ++ t ++ w4 ++ u "," ++ t' ++ u "}" ++ rest) with (34%N :: (tk ++ quote ++ (w2 ++ u ":" ++ w3 ++ t ++ w4 ++ u "," ++ t' ++ u "}" ++ rest))).
    rewrite skip_ws_id by reflexivity. change (N.eqb 34 34) with true. cbv iota. rewrite (p_chars_complete k tk _ Hk).
    rewrite skip_blank by exact H2. change (u ":" ++ w3 ++ t ++ w4 ++ u "," ++ t' ++ u "}" ++ rest) with (58%N :: (w3 ++ t ++ w4 ++ u "," ++ t' ++ u "}" ++ rest)).
    rewrite skip_ws_id by reflexivity. change (N.eqb 58 58) with true. cbv iota.
    rewrite skip_blank by exact H3. rewrite (begins_skip _ _ _ (spells_begins v t Ht)).
    rewrite IH; [|lia|apply ends_number_blank; [exact H4|apply Ec; reflexivity]].
    rewrite skip_blank by exact H4. change (u "," ++ t' ++ u "}" ++ rest) with (44%N :: (t' ++ u "}" ++ rest)).
    rewrite skip_ws_id by reflexivity. change (N.eqb 44 44) with true. cbv iota. rewrite IHl by lia. reflexivity.
Qed.

Lemma literal_split p s : starts_with p s = true -> s = p ++ skipn (length p) s.
Proof.
  revert s. induction p as [|c p IH]; intros s H; [reflexivity|]. destruct s as [|x s]; [discriminate|]. simpl in H.
  apply andb_true_iff in H. destruct H as [E H]. apply N.eqb_eq in E. subst x. simpl. f_equal. apply IH, H.
Qed.
Lemma sound3 f :
  (forall s v rest, p_value f s = Some (v, rest) -> exists t, spells v t /\ s = t ++ rest) /\
  (forall s l rest, p_elems f s = Some (l, rest) -> exists t, spells_elements l t /\ s = t ++ u "]" ++ rest) /\
  (forall s l rest, p_members f s = Some (l, rest) -> exists t, spells_members l t /\ s = t ++ u "}" ++ rest).
Proof.
  induction f as [|f (IHv & IHe & IHm)]; [repeat split; intros; discriminate|]. split; [|split].
  - intros [|c r] v rest H; [discriminate|]. cbn [p_value] in H.
    destruct (N.eqb_spec c 34) as [-> |N1].
    { destruct (p_chars r) as [[s r']|] eqn:Ec; [|discriminate]. injection H as <- <-.
      destruct (p_chars_sound _ r s r' (le_n _) Ec) as (t & Ht & ->). exists (quote ++ t ++ quote). split; [constructor; exact Ht|].
      simpl. rewrite <- app_assoc. reflexivity. }
    destruct (N.eqb_spec c 91) as [-> |N2].
    { destruct (skip_ws r) as [|x r'] eqn:Ek; [discriminate|]. destruct (N.eqb_spec x 93) as [-> |N3].
      - injection H as <- <-. destruct (skip_ws_split r) as (w & Hw & E). rewrite Ek in E. exists (u "[" ++ w ++ u "]").
        split; [constructor; exact Hw|]. rewrite E. simpl. rewrite <- app_assoc. reflexivity.
      - destruct (p_elems f r) as [[l r2]|] eqn:Ee; [|discriminate]. injection H as <- <-.
        destruct (IHe _ _ _ Ee) as (t & Ht & ->). exists (u "[" ++ t ++ u "]"). split; [constructor; exact Ht|].
        simpl. rewrite <- app_assoc. reflexivity. }
    destruct (N.eqb_spec c 123) as [-> |N3].
    { destruct (skip_ws r) as [|x r'] eqn:Ek; [discriminate|]. destruct (N.eqb_spec x 125) as [-> |N4].
      - injection H as <- <-. destruct (skip_ws_split r) as (w & Hw & E). rewrite Ek in E. exists (u "{" ++ w ++ u "}").
        split; [constructor; exact Hw|]. rewrite E. simpl. rewrite <- app_assoc. reflexivity.
      - destruct (p_members f r) as [[l r2]|] eqn:Ee; [|discriminate]. injection H as <- <-.
        destruct (IHm _ _ _ Ee) as (t & Ht & ->). exists (u "{" ++ t ++ u "}"). split; [constructor; exact Ht|].
        simpl. rewrite <- app_assoc. reflexivity. }
    destruct (starts_with (u "null") (c :: r)) eqn:E1.
    { injection H as <- <-. exists (u "null"). split; [constructor|]. apply (literal_split (u "null")), E1. }
    destruct (starts_with (u "true") (c :: r)) eqn:E2.
    { injection H as <- <-. exists (u "true"). split; [constructor|]. apply (literal_split (u "true")), E2. }
    destruct (starts_with (u "false") (c :: r)) eqn:E3.
    { injection H as <- <-. exists (u "false"). split; [constructor|]. apply (literal_split (u "false")), E3. }
    destruct (span number_char (c :: r)) as [t r2] eqn:Es. destruct (is_number t) eqn:En; [|discriminate].
    injection H as <- <-. pose proof (span_spec number_char (c :: r)) as (Es1 & _). rewrite Es in Es1.
    exists t. split; [constructor; apply number_spec, En|exact Es1].
  - intros s l rest H. rewrite p_elems_eq in H. destruct (p_value f (skip_ws s)) as [[v r]|] eqn:Ev; [|discriminate].
    destruct (IHv _ _ _ Ev) as (t & Ht & E). destruct (skip_ws_split s) as (w1 & Hw1 & E1). rewrite E in E1.
    destruct (skip_ws_split r) as (w2 & Hw2 & E2). destruct (skip_ws r) as [|x r'] eqn:Ek; [discriminate|].
    destruct (N.eqb_spec x 44) as [-> |N1].
    + destruct (p_elems f r') as [[l' r2]|] eqn:El; [|discriminate]. injection H as <- <-.
      destruct (IHe _ _ _ El) as (t' & Ht' & E'). exists (w1 ++ t ++ w2 ++ u "," ++ t'). split; [constructor; assumption|].
      rewrite E1, E2, E'. simpl fst. simpl snd. rewrite <- !app_assoc. reflexivity.
    + destruct (N.eqb_spec x 93) as [-> |N2]; [|discriminate]. injection H as <- <-.
      exists (w1 ++ t ++ w2). split; [constructor; assumption|]. rewrite E1, E2. rewrite <- !app_assoc. reflexivity.
  - intros s l rest H. rewrite p_members_eq in H. destruct (skip_ws_split s) as (w1 & Hw1 & E1).
    destruct (skip_ws s) as [|q s1]; [discriminate|]. destruct (N.eqb_spec q 34) as [-> |Nq]; [|discriminate].
    destruct (p_chars s1) as [[k s2]|] eqn:Ec; [|discriminate].
    destruct (p_chars_sound _ s1 k s2 (le_n _) Ec) as (tk & Htk & ->).
    destruct (skip_ws_split s2) as (w2 & Hw2 & E2). destruct (skip_ws s2) as [|x s3]; [discriminate|].
    destruct (N.eqb_spec x 58) as [-> |Nx]; [|discriminate].
    destruct (skip_ws_split s3) as (w3 & Hw3 & E3).
    destruct (p_value f (skip_ws s3)) as [[v r]|] eqn:Ev; [|discriminate].
    destruct (IHv _ _ _ Ev) as (t & Ht & E). rewrite E in E3.
    destruct (skip_ws_split r) as (w4 & Hw4 & E4). destruct (skip_ws r) as [|y r'] eqn:Ek; [discriminate|].
    destruct (N.eqb_spec y 44) as [-> |N1].
    + destruct (p_members f r') as [[l' r2]|] eqn:El; [|discriminate]. injection H as <- <-.
      destruct (IHm _ _ _ El) as (t' & Ht' & E'). exists (w1 ++ quote ++ tk ++ quote ++ w2 ++ u ":" ++ w3 ++ t ++ w4 ++ u "," ++ t').
      split; [constructor; assumption|]. rewrite E1, E2, E3, E4, E'. simpl fst. simpl snd. rewrite <- !app_assoc. reflexivity.
    + destruct (N.eqb_spec y 125) as [-> |N2]; [|discriminate]. injection H as <- <-.
      exists (w1 ++ quote ++ tk ++ quote ++ w2 ++ u ":" ++ w3 ++ t ++ w4). split; [constructor; assumption|].
      rewrite E1, E2, E3, E4. rewrite <- !app_assoc. reflexivity.
Qed.

(** ** C117: exactly the texts of the grammar are read, each as the value it spells *)
Theorem C117_json : forall s v, parse_json s = Some v <-> json_text v s.
Proof.
  intros s v. unfold parse_json, json_text. split.
  - intros H. destruct (p_value _ (skip_ws s)) as [[v' r]|] eqn:Ev; [|discriminate].
    destruct (proj1 (sound3 _) _ _ _ Ev) as (t & Ht & E). destruct (skip_ws_split s) as (w1 & Hw1 & E1). rewrite E in E1.
    destruct (skip_ws_split r) as (w2 & Hw2 & E2). destruct (skip_ws r); [|discriminate]. injection H as <-.
    rewrite app_nil_r in E2. subst r. exists w1, t, w2. auto.
  - intros (w1 & t & w2 & -> & H1 & Ht & H2). rewrite skip_blank by exact H1.
    rewrite (begins_skip _ _ _ (spells_begins v t Ht)).
    rewrite (proj1 complete3 v t Ht).
    + rewrite <- (app_nil_r w2), skip_blank by exact H2. reflexivity.
    + rewrite !app_length. lia.
    + rewrite <- (app_nil_r w2). apply ends_number_blank; [exact H2|intros c; discriminate].
Qed.
(** so a text has at most one value *)
Theorem C117_json_one : forall s v v', json_text v s -> json_text v' s -> v = v'.
Proof. intros s v v' H H'. apply C117_json in H, H'. rewrite H in H'. injection H' as <-. reflexivity. Qed.

(* ------------------------------------------------------------------ *)
(** ** The two options *)
(** [d.get(k)]: the last member with the key, [null] without one *)
Definition says (ms : list (str * json)) (k : string) (v : json) : Prop :=
  (exists a b, ms = a ++ (u k, v) :: b /\ ~ In (u k) (map fst b)) \/ (~ In (u k) (map fst ms) /\ v = JNull).
Definition says_text (ms : list (str * json)) (k : string) (o : ostr) : Prop :=
  (says ms k JNull /\ o = None) \/ exists s, says ms k (JStr s) /\ o = Some s.
Definition says_source (j : json) (s : source) : Prop :=
  exists ms, j = JObj ms /\ says_text ms "xpath" (s_xpath s) /\ says_text ms "value" (s_value s).
(** values that count as false *)
Definition falsy (j : json) : Prop := j = JNull \/ j = JBool false \/ j = JStr [] \/ j = JArr [] \/ j = JObj [].
Definition says_range (j : json) (r : range_item) : Prop :=
  exists ms a b v, j = JObj ms /\ says ms "min" a /\ says_source a (ri_min r) /\ says ms "max" b /\ says_source b (ri_max r) /\
    says ms "standalone" v /\ (forall t, v <> JNum t) /\ (ri_standalone r = false <-> falsy v).

Lemma find_last (k : str) (ms : list (str * json)) m : find (fun x => streq k (fst x)) (rev ms) = Some m <-> exists a b, ms = a ++ m :: b /\ fst m = k /\ ~ In k (map fst b).
Proof.
  induction ms as [|x ms IH] using rev_ind.
  - simpl. split; [discriminate|]. intros (a & b & E & _). destruct a; discriminate.
  - rewrite rev_app_distr. simpl. destruct (streq k (fst x)) eqn:E.
    + apply streq_true in E. split.
      * intros [= <-]. exists ms, []. auto.
      * intros (a & b & E' & Ek & Hn). destruct b as [|y b] using rev_ind; [apply app_inj_tail in E' as [_ <-]; reflexivity|].
        clear IHb. change (a ++ m :: b ++ [y]) with (a ++ (m :: b) ++ [y]) in E'. rewrite app_assoc in E'. apply app_inj_tail in E' as [_ <-].
        exfalso. apply Hn. rewrite map_app, in_app_iff. right. left. symmetry. exact E.
    + apply streq_false in E. rewrite IH. split.
      * intros (a & b & -> & Ek & Hn). exists a, (b ++ [x]). split; [rewrite <- app_assoc; reflexivity|]. split; [exact Ek|].
        rewrite map_app, in_app_iff. simpl. intros [H|[H|[]]]; [exact (Hn H)|exact (E (eq_sym H))].
      * intros (a & b & E' & Ek & Hn). destruct b as [|y b] using rev_ind; [apply app_inj_tail in E' as [_ <-]; congruence|].
        clear IHb. change (a ++ m :: b ++ [y]) with (a ++ (m :: b) ++ [y]) in E'. rewrite app_assoc in E'. apply app_inj_tail in E' as [-> <-].
        exists a, b. split; [reflexivity|]. split; [exact Ek|]. intros H. apply Hn. rewrite map_app, in_app_iff. left. exact H.
Qed.
Lemma jget_spec ms k v : jget (u k) ms = v <-> says ms k v.
Proof.
  unfold jget, says. destruct (find _ (rev ms)) as [[k' v']|] eqn:E.
  - pose proof (proj1 (find_last _ _ _) E) as (a & b & Em & Ek & Hn). simpl in Ek. subst k'. split.
    + simpl. intros <-. left. exists a, b. auto.
    + intros [(a' & b' & Em' & Hn')|[Hno _]].
      * pose proof (proj2 (find_last (u k) ms (u k, v)) (ex_intro _ a' (ex_intro _ b' (conj Em' (conj eq_refl Hn'))))) as E'. rewrite E in E'. injection E' as <-. reflexivity.
      * exfalso. apply Hno. rewrite Em, map_app, in_app_iff. right. left. reflexivity.
  - split.
    + intros <-. right. split; [|reflexivity]. intros H. apply in_map_iff in H as ([k' v'] & Ek & H). simpl in Ek. subst k'.
      pose proof (find_none _ _ E (u k, v') (proj1 (in_rev _ _) H)) as F. simpl in F. rewrite streq_refl in F. discriminate.
    + intros [(a & b & Em & Hn)|[_ ->]]; [|reflexivity].
      pose proof (proj2 (find_last (u k) ms (u k, v)) (ex_intro _ a (ex_intro _ b (conj Em (conj eq_refl Hn))))) as E'. rewrite E in E'. discriminate.
Qed.
Lemma text_of_spec ms k o : text_of (jget (u k) ms) = Ok o <-> says_text ms k o.
Proof.
  unfold says_text. setoid_rewrite <- jget_spec. destruct (jget (u k) ms) as [|x|x|s|x|x]; simpl; split; intros H;
    try discriminate; try (destruct H as [[H _]|(s' & H & _)]; discriminate).
  - injection H as <-. left. auto.
  - destruct H as [[_ ->]|(s' & H & _)]; [reflexivity|discriminate].
  - injection H as <-. right. exists s. auto.
  - destruct H as [[H _]|(s' & [= <-] & ->)]; [discriminate|reflexivity].
Qed.
Lemma source_of_spec j s : source_of j = Ok s <-> says_source j s.
Proof.
  unfold says_source. destruct j as [| | | | |ms]; simpl; try (split; [discriminate|intros (ms & E & _); discriminate]).
  setoid_rewrite <- text_of_spec. split.
  - intros H. exists ms. destruct (text_of (jget (u "xpath") ms)) as [x|]; [|discriminate]. cbn [bind] in H.
    destruct (text_of (jget (u "value") ms)) as [v|]; [|discriminate]. cbn [bind] in H. injection H as <-. auto.
  - intros (ms' & [= <-] & E1 & E2). rewrite E1. cbn [bind]. rewrite E2. destruct s. reflexivity.
Qed.
Lemma mapM_all {A B} (f : A -> res B) l : forall r, mapM f l = Ok r <-> Forall2 (fun x y => f x = Ok y) l r.
Proof.
  induction l as [|x l IH]; intros r; cbn [mapM].
  - split; [intros [= <-]; constructor|]. intros H. inversion H. reflexivity.
  - split.
    + destruct (f x) as [y|] eqn:E; [|discriminate]. cbn [bind]. destruct (mapM f l) as [ys|]; [|discriminate]. cbn [bind]. intros [= <-].
      constructor; [exact E|]. apply IH. reflexivity.
    + intros H. inversion H as [|? y ? ys E F]. subst. rewrite E. cbn [bind]. rewrite (proj2 (IH ys) F). reflexivity.
Qed.
Lemma Forall2_imp {A B} (P Q : A -> B -> Prop) l r : (forall x y, P x y -> Q x y) -> Forall2 P l r -> Forall2 Q l r.
Proof. intros H F. induction F; constructor; auto. Qed.
Lemma loads_spec s v : loads s = Ok v <-> json_text v s.
Proof. rewrite <- C117_json. unfold loads. destruct (parse_json s) as [j|]; split; intros E; congruence. Qed.
Lemma list_of_spec j l : list_of j = Ok l <-> j = JArr l.
Proof. destruct j; simpl; split; intros E; congruence. Qed.
(** [.children.concat]: lists of lists of objects *)
Theorem C117_concat : forall s l, read_concat s = Ok l <->
  exists js, json_text (JArr js) s /\ Forall2 (fun j item => exists js', j = JArr js' /\ Forall2 says_source js' item) js l.
Proof.
  intros s l. unfold read_concat.
  assert (Q : forall j item, (do y <- list_of j ;; mapM source_of y) = Ok item <-> exists js', j = JArr js' /\ Forall2 says_source js' item).
  { intros j item. split.
    - destruct (list_of j) as [js'|] eqn:E; [|discriminate]. cbn [bind]. intros H. exists js'. split; [apply list_of_spec, E|]. apply mapM_all in H. revert H. apply Forall2_imp. intros x y. apply source_of_spec.
    - intros (js' & -> & H). cbn [list_of bind]. apply mapM_all. revert H. apply Forall2_imp. intros x y. apply source_of_spec. }
  split.
  - destruct (loads s) as [j|] eqn:E; [|discriminate]. cbn [bind]. destruct (list_of j) as [js|] eqn:E'; [|discriminate]. cbn [bind]. intros H.
    apply list_of_spec in E'. subst j. exists js. split; [apply loads_spec, E|]. apply mapM_all in H. revert H. apply Forall2_imp. intros x y. apply Q.
  - intros (js & H & F). apply loads_spec in H. rewrite H. cbn [bind list_of]. apply mapM_all. revert F. apply Forall2_imp. intros x y. apply Q.
Qed.
Lemma truth_spec v b : json_truth v = Ok b <-> (forall t, v <> JNum t) /\ (b = false <-> falsy v).
Proof.
  assert (F : forall v, falsy v <-> json_truth v = Ok false).
  { clear. intros v. unfold falsy. split.
    - intros [-> | [-> | [-> | [-> | ->]]]]; reflexivity.
    - destruct v as [|[]|t|[]|[]|[]]; simpl; intros E; try discriminate; tauto. }
  rewrite F. destruct v; simpl; (split; [intros E|intros [N E]]); try discriminate E;
    try (injection E as <-; split; [congruence|split; congruence]);
    try (exfalso; exact (N _ eq_refl)); f_equal; destruct b; try destruct b0; try destruct s; try destruct l; try destruct ms; simpl in *; try reflexivity; destruct E as [E1 E2];
    try (specialize (E1 eq_refl); discriminate); try (specialize (E2 eq_refl); discriminate).
Qed.
(** [.children.range]: a list of objects with two sources *)
Theorem C117_range : forall s l, read_range s = Ok l <-> exists js, json_text (JArr js) s /\ Forall2 says_range js l.
Proof.
  intros s l. unfold read_range.
  assert (Q : forall j r, range_of j = Ok r <-> says_range j r).
  { intros j r. unfold says_range. destruct j as [|x|x|x|x|ms]; cbn [range_of]; try (split; [discriminate|intros (ms & a & b & v & E & _); discriminate]). split.
    - intros H. destruct (source_of (jget (u "min") ms)) as [a|] eqn:E1; [|discriminate]. cbn [bind] in H.
      destruct (source_of (jget (u "max") ms)) as [b|] eqn:E2; [|discriminate]. cbn [bind] in H.
      destruct (json_truth (jget (u "standalone") ms)) as [t|] eqn:E3; [|discriminate]. cbn [bind] in H. injection H as <-.
      apply source_of_spec in E1, E2. apply truth_spec in E3 as [E3 E4]. cbn [ri_min ri_max ri_standalone].
      eexists ms, _, _, _. split; [reflexivity|]. split; [apply jget_spec; reflexivity|]. split; [exact E1|]. split; [apply jget_spec; reflexivity|].
      split; [exact E2|]. split; [apply jget_spec; reflexivity|]. split; [exact E3|exact E4].
    - intros (ms' & a & b & v & [= <-] & G1 & S1 & G2 & S2 & G3 & N & T). apply jget_spec in G1, G2, G3. apply source_of_spec in S1, S2.
      rewrite G1, S1. cbn [bind]. rewrite G2, S2. cbn [bind]. rewrite G3. rewrite (proj2 (truth_spec v (ri_standalone r)) (conj N T)). destruct r. reflexivity. }
  split.
  - destruct (loads s) as [j|] eqn:E; [|discriminate]. cbn [bind]. destruct (list_of j) as [js|] eqn:E'; [|discriminate]. cbn [bind]. intros H.
    apply list_of_spec in E'. subst j. exists js. split; [apply loads_spec, E|]. apply mapM_all in H. revert H. apply Forall2_imp. intros x y. apply Q.
  - intros (js & H & F). apply loads_spec in H. rewrite H. cbn [bind list_of]. apply mapM_all. revert F. apply Forall2_imp. intros x y. apply Q.
Qed.

(** ** Examples *)
Example C117_ex : parse_json (u " {""a\u0041\\"" : [ 1.5e-3,null, true,false ,-0] , """":{},""a"":[ ]} ") =
  Some (JObj [([97; 65; 92]%N, JArr [JNum (u "1.5e-3"); JNull; JBool true; JBool false; JNum (u "-0")]); ([], JObj []); (u "a", JArr [])]).
Proof. vm_compute. reflexivity. Qed.
Example C117_ex_not : map parse_json (map u ["01"; "1."; ".5"; "+1"; "[1,]"; "{""a"" 1}"; "nul"; "1 2"; ""; """\x"""; "{a:1}"]%string) = repeat None 11.
Proof. vm_compute. reflexivity. Qed.
Example C117_ex_text : json_text (JStr (u "a/b")) (u " ""a\/b"" ").
Proof. apply C117_json. vm_compute. reflexivity. Qed.
Example C117_ex_last : read_concat (u "[[], [{""xpath"": ""b"", ""xpath"": ""a""}, {""value"": "" "", ""xpath"": null}]]") = Ok [[]; [mkSource (Some (u "a")) None; mkSource None (Some (u " "))]].
Proof. vm_compute. reflexivity. Qed.
Print Assumptions C117_json.
Print Assumptions C117_json_one.
Print Assumptions C117_concat.
Print Assumptions C117_range.
