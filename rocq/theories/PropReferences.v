(** C104: references with the patterns of the code *)
From Verif Require Import Base ModelDownload ModelJatsText PropJatsText PropJatsExact ModelJats PropJats ModelRegex ModelPatterns PropPatterns PropFinders.
Open Scope list_scope.
Open Scope nat_scope.

(* ------------------------------------------------------------------ *)
(** ** Every element of a list is changed *)
(** how many elements below have the mark *)
Fixpoint marked (k : nat) (e : node) : nat :=
  match e with
  | El _ _ _ _ kids _ => (fix go l := match l with [] => 0 | c :: l' => ((if has_mark k c then 1 else 0) + marked k c) + go l' end) kids
  | Mi _ => 0
  end.
Definition marked_here (k : nat) (c : node) : nat := (if has_mark k c then 1 else 0) + marked k c.
Definition marked_all (k : nat) (l : list node) : nat := list_sum (map (marked_here k) l).
Lemma marked_eq k e : marked k e = marked_all k (nkids e).
Proof. destruct e as [m nm a x kids t|t]; [|reflexivity]. cbn [marked nkids]. induction kids as [|c kids IH]; [reflexivity|]. cbn. now rewrite IH. Qed.
Lemma marked_all_cons k c l : marked_all k (c :: l) = marked_here k c + marked_all k l.
Proof. reflexivity. Qed.
Lemma marked_all_app k l l' : marked_all k (l ++ l') = marked_all k l + marked_all k l'.
Proof. unfold marked_all. now rewrite map_app, list_sum_app. Qed.
Lemma marked_tail k t c : marked_here k (set_tail t c) = marked_here k c.
Proof. destruct c as [[j|] nm a x kids t0|]; reflexivity. Qed.
Definition between (n k n' : nat) : nat := if (n <=? k) && (k <? n') then 1 else 0.
Lemma between_app n k n2 n3 : n <= n2 -> n2 <= n3 -> between n k n2 + between n2 k n3 = between n k n3.
Proof. unfold between. intros. destruct (Nat.leb_spec n k), (Nat.ltb_spec k n2), (Nat.leb_spec n2 k), (Nat.ltb_spec k n3); cbn; lia. Qed.
Lemma between_self n k : between n k n = 0.
Proof. unfold between. destruct (Nat.leb_spec n k), (Nat.ltb_spec k n); cbn; lia. Qed.
Lemma between_one n k : between n k (S n) = if k =? n then 1 else 0.
Proof. unfold between. destruct (Nat.leb_spec n k), (Nat.ltb_spec k (S n)), (Nat.eqb_spec k n); cbn; lia. Qed.
Lemma label_is_element p n e : is_element (snd (label p n e)) = is_element e.
Proof. destruct e as [m nm a x kids t|t]; [|reflexivity]. rewrite label_eq. now destruct (label_kids p n kids). Qed.
Lemma label_marked p k e : by_name p -> forall n, n <= fst (label p n e) /\ marked k (snd (label p n e)) = between n k (fst (label p n e)).
Proof.
  intros [_ Hp]. induction e as [m nm a x kids t IH|t] using node_ind'; intros n; [|cbn; split; [lia|]; now rewrite between_self].
  rewrite label_eq.
  enough (K : forall n, n <= fst (label_kids p n kids) /\ marked_all k (snd (label_kids p n kids)) = between n k (fst (label_kids p n kids))).
  { specialize (K n). destruct (label_kids p n kids) as [n' kids']. cbn [fst snd] in *. now rewrite marked_eq. }
  clear n m nm a x t. induction kids as [|c kids IHk]; intros n; [cbn; split; [lia|]; now rewrite between_self|].
  inversion IH as [|? ? H1 H2]; subst. cbn [label_kids]. set (n1 := if p c then S n else n). specialize (H1 n1). pose proof (label_is_element p n1 c) as Hel. destruct (label p n1 c) as [n2 c'] eqn:E. fold (label_kids p). specialize (IHk H2 n2).
  destruct (label_kids p n2 kids) as [n3 l'']. cbn [fst snd] in *. destruct H1 as [L1 M1], IHk as [L2 M2].
  assert (Hn : n <= n1) by (unfold n1; destruct (p c); lia). split; [lia|]. rewrite marked_all_cons, M2, <- (between_app n k n2 n3) by lia. f_equal. rewrite <- (between_app n k n1 n2), <- M1 by lia.
  unfold marked_here. f_equal; [|destruct c'; reflexivity]. destruct c as [m0 nm0 a0 x0 ks0 t0|]; [|unfold n1; rewrite Hp; destruct c'; [discriminate|]; now rewrite between_self].
  destruct c' as [m' nm' a' x' ks' t'|t']; [|discriminate]. unfold n1. destruct (p _); cbn [set_mark has_mark]; [now rewrite between_one|now rewrite between_self].
Qed.

Section All.
Variable p : node -> bool.
Variable act : change.
Hypothesis Hp : by_name p.
(** what holds of the elements of the list before, and what after the change *)
Variables Before After : node -> Prop.
Definition stable (W : node -> Prop) : Prop :=
  (forall m nm a x kids t m' t', W (El m nm a x kids t) -> W (El m' nm a x kids t')) /\
  (forall m nm a x kids t x' kids', W (El m nm a x kids t) -> kids <> [] -> W (El m nm a x' kids' t)).
Hypothesis HB : stable Before.
Hypothesis HA : stable After.
(** the element is changed or goes *)
Hypothesis Hact : forall prev c p' l b, p c = true -> Before c -> act prev c = Ok (p', l, b) -> b = false /\
  (l = [] \/ exists d, l = [d] /\ mark_of d = mark_of c /\ nkids d = nkids c /\ is_element d = true /\ p d = true /\ Before d /\ After d).
Definition reached (k : nat) (c : node) : Prop := p c = true -> Before c /\ (After c \/ exists j, mark_of c = Some j /\ k <= j).
Definition only_list (c : node) : Prop := mark_of c <> None -> p c = true.
Definition RK (k : nat) (c : node) : Prop := reached k c /\ only_list c.
Lemma p_same m nm a x kids t m' x' kids' t' : p (El m nm a x kids t) = p (El m' nm a x' kids' t').
Proof. destruct Hp as [H _]. now rewrite H, (H m'). Qed.
Lemma has_mark_of k c : has_mark k c = true <-> mark_of c = Some k.
Proof.
  destruct c as [[j|] ? ? ? ? ?|]; cbn; [|split; discriminate|split; discriminate]. rewrite Nat.eqb_eq. split; [now intros ->|]. now intros [= ->].
Qed.
Lemma RK_tail k t c : RK k c -> has_mark k c = false -> RK (S k) (set_tail t c).
Proof.
  intros [H1 H2] Hm. destruct c as [m nm a x kids t0|]; [|split; intros Q; [destruct Hp as [_ Hpm]; cbn in Q; now rewrite Hpm in Q|now elim Q]].
  cbn [set_tail]. destruct HB as [B _], HA as [A _]. split; [|intros Q; rewrite (p_same _ _ _ _ _ _ m x kids t0); now apply H2].
  intros Q. rewrite (p_same _ _ _ _ _ _ m x kids t0) in Q. destruct (H1 Q) as [Q1 Q2]. split; [eapply B; exact Q1|]. destruct Q2 as [Q2|(j & Ej & Hj)]; [left; eapply A; exact Q2|]. right.
  cbn in Ej. subst m. cbn in Hm |- *. apply Nat.eqb_neq in Hm. exists j. split; [reflexivity|lia].
Qed.
Lemma marked_zero_below k e : marked k e = 0 -> below (fun c => has_mark k c = false) e.
Proof.
  induction e as [m nm a x kids t IH|t] using node_ind'; [|intros _; exact I]. rewrite marked_eq, below_eq. cbn [nkids]. induction kids as [|c kids IHk]; intros H; [constructor|]. inversion IH; subst.
  rewrite marked_all_cons in H. unfold marked_here in H at 1. destruct (has_mark k c) eqn:E; [lia|]. constructor; [split; [exact E|]|]; auto. apply H2. lia. apply IHk; [assumption|lia].
Qed.
Lemma below_and (R R' : node -> Prop) e : below R e -> below R' e -> below (fun c => R c /\ R' c) e.
Proof.
  induction e as [m nm a x kids t IH|t] using node_ind'; [|auto]. rewrite !below_eq. cbn [nkids]. intros H1 H2. rewrite Forall_forall in *. intros c Hc. destruct (H1 c Hc), (H2 c Hc). auto.
Qed.
Lemma RK_next k e : marked k e = 0 -> below (RK k) e -> below (RK (S k)) e.
Proof.
  intros H0 H. eapply below_imp; [|apply (below_and _ _ e H (marked_zero_below k e H0))]. cbv beta. intros c [H1 H2]. rewrite <- (set_tail_same c). now apply RK_tail.
Qed.
Lemma at_none k e : at_node act k e = Ok None -> marked k e = 0.
Proof.
  induction e as [m nm a x kids t IH|t] using node_ind'; [|reflexivity]. rewrite at_node_eq, marked_eq. cbn [nkids]. destruct (at_kids act k x kids) as [[[[x' kids'] b]|]|] eqn:E; cbn [bind]; [discriminate| |discriminate]. intros _.
  revert x E. induction kids as [|c kids IHk]; intros x E; [reflexivity|]. inversion IH as [|? ? H1 H2]; subst. cbn [at_kids] in E. rewrite marked_all_cons. unfold marked_here. destruct (has_mark k c).
  - destruct (act x c) as [[[? ?] ?]|]; discriminate.
  - destruct (at_node act k c) as [[[? ?]|]|] eqn:Ec; cbn [bind] in E; [discriminate| |discriminate]. fold (at_kids act k) in E. destruct (at_kids act k (ntail c) kids) as [[[[? ?] ?]|]|] eqn:Ek; cbn [bind] in E; [discriminate| |discriminate].
    rewrite (H1 eq_refl), (IHk H2 _ Ek). reflexivity.
Qed.
(** the change at a mark: which marks are left, and what holds *)
Lemma all_step k e : forall e' b, at_node act k e = Ok (Some (e', b)) -> marked k e <= 1 -> below (RK k) e ->
  b = false /\ below (RK (S k)) e' /\ (forall j, marked j e' <= marked j e) /\ nkids e <> [] .
Proof.
  induction e as [m nm a x kids t IH|t] using node_ind'; intros e' b E; [|discriminate]. apply at_node_inv in E as (m0 & nm0 & a0 & x0 & kids0 & t0 & x' & kids' & E0 & -> & E). injection E0 as <- <- <- <- <- <-.
  rewrite marked_eq, !below_eq. cbn [nkids]. intros H1 Hb.
  enough (K : b = false /\ Forall (fun c => RK (S k) c /\ below (RK (S k)) c) kids' /\ (forall j, marked_all j kids' <= marked_all j kids) /\ kids <> []).
  { destruct K as (K1 & K2 & K3 & K4). split; [exact K1|]. split; [exact K2|]. split; [|exact K4]. intros j. rewrite !marked_eq. apply K3. }
  clear m nm a t. revert x x' kids' b E H1. induction kids as [|c kids IHk]; intros x x' kids' b E H1; [discriminate|].
  inversion IH as [|? ? Hc Hk]; subst. inversion Hb as [|? ? [Hb1 Hb2] Hb3]; subst. rewrite marked_all_cons in H1. unfold marked_here in H1.
  assert (Rest : marked_all k kids = 0 -> Forall (fun c => RK (S k) c /\ below (RK (S k)) c) kids).
  { intros H0. assert (Q : below (RK (S k)) (El None [] [] None kids None)) by (apply RK_next; [rewrite marked_eq; exact H0|now apply below_eq]). now apply below_eq in Q. }
  apply at_kids_inv in E as [(E & new & E1 & ->)|[(E & c' & E1 & -> & ->)|(E & E2 & t' & l'' & E1 & -> & ->)]]; rewrite E in H1.
  - assert (Hpc : p c = true) by (apply Hb1; apply has_mark_of in E; congruence). destruct Hb1 as [Hb1 _]. destruct (Hb1 Hpc) as [Q1 _]. destruct (Hact _ _ _ _ _ Hpc Q1 E1) as [-> Q]. split; [reflexivity|].
    destruct Q as [-> |(d & -> & D1 & D2 & D3 & D4 & D5 & D6)].
    + cbn [app]. split; [apply Rest; lia|]. split; [|discriminate]. intros j. rewrite marked_all_cons. lia.
    + cbn [app]. split; [|split; [|discriminate]].
      * constructor; [|apply Rest; lia]. split; [split; [intros _; auto|intros _; exact D4]|]. assert (Q : below (RK (S k)) c) by (apply RK_next; [lia|exact Hb2]). rewrite below_eq in Q |- *. now rewrite D2.
      * intros j. rewrite !marked_all_cons. unfold marked_here. rewrite (marked_eq j d), D2, <- marked_eq.
        assert (has_mark j d = has_mark j c) as -> by (apply eq_iff_eq_true; rewrite !has_mark_of; now rewrite D1). lia.
  - destruct (Hc _ _ E1 ltac:(lia) Hb2) as (Q1 & Q2 & Q3 & Q4). split; [exact Q1|]. destruct (at_node_inv _ _ _ _ _ E1) as (m & nm & a & y & ks & t & y' & ks' & -> & -> & E2). cbn [nkids] in Q4.
    assert (Z : marked k (El m nm a y ks t) <> 0).
    { intros Z. apply marked_zero_below in Z. rewrite below_eq in Z. cbn [nkids] in Z. clear -Z E2. revert y y' ks' b E2.
      assert (N : forall e, below (fun c => has_mark k c = false) e -> at_node act k e = Ok None).
      { clear. intros e. induction e as [m nm a x kids t IH|t] using node_ind'; [|reflexivity]. rewrite below_eq, at_node_eq. cbn [nkids]. intros H. enough (K : forall x, at_kids act k x kids = Ok None) by now rewrite K. clear x. induction kids as [|c kids IHk]; intros x; [reflexivity|].
        inversion IH as [|? ? I1 I2]; subst. inversion H as [|? ? [H1 H2] H3]; subst. cbn [at_kids]. rewrite H1, (I1 H2). cbn [bind]. fold (at_kids act k). now rewrite (IHk I2 H3). }
      intros y y' ks' b E2. specialize (N (El None [] [] y ks None)). rewrite below_eq, at_node_eq, E2 in N. discriminate (N Z). }
    split; [|split; [|discriminate]].
    + constructor; [|apply Rest; lia]. split; [|exact Q2]. destruct Hb1 as [B1 B2]. destruct HB as [_ B], HA as [_ A]. split; [|intros Q; rewrite (p_same _ _ _ _ _ _ m y ks t); now apply B2].
      intros Q. rewrite (p_same _ _ _ _ _ _ m y ks t) in Q. destruct (B1 Q) as [Z1 Z2]. split; [eapply B; eauto|]. destruct Z2 as [Z2|(j & Ej & Hj)]; [left; eapply A; eauto|]. right. exists j. split; [exact Ej|].
      cbn in Ej. subst m. cbn in E. apply Nat.eqb_neq in E. lia.
    + intros j. rewrite !marked_all_cons. unfold marked_here. specialize (Q3 j). assert (has_mark j (El m nm a y' ks' t) = has_mark j (El m nm a y ks t)) as -> by (destruct m; reflexivity). lia.
  - destruct (IHk Hk Hb3 _ _ _ _ E1 ltac:(lia)) as (Q1 & Q2 & Q3 & Q4). split; [exact Q1|]. split; [|split; [|discriminate]].
    + constructor; [|exact Q2]. rewrite below_set_tail. split; [now apply RK_tail|]. apply RK_next; [now apply at_none in E2|exact Hb2].
    + intros j. rewrite !marked_all_cons, marked_tail. specialize (Q3 j). lia.
Qed.
Lemma all_loop : forall n k e e', loop act k n e = Ok e' -> (forall j, marked j e <= 1) -> below (RK k) e -> below (RK (k + n)) e' /\ forall j, marked j e' <= marked j e.
Proof.
  induction n as [|n IH]; intros k e e'; cbn [loop]; [intros [= <-] _ H; rewrite Nat.add_0_r; auto|]. intros E H1 Hb. replace (k + S n) with (S k + n) by lia.
  destruct (at_node act k e) as [[[e1 b]|]|] eqn:Ea; cbn [bind] in E; [| |discriminate].
  - destruct (all_step k e e1 b Ea (H1 k) Hb) as (-> & Q1 & Q2 & _). destruct (IH _ _ _ E) as [Q3 Q4]; [intros j; specialize (H1 j); specialize (Q2 j); lia|exact Q1|]. split; [exact Q3|]. intros j. specialize (Q2 j). specialize (Q4 j). lia.
  - apply (IH _ _ _ E H1). apply RK_next; [now apply at_none in Ea|exact Hb].
Qed.
Lemma each_all e e' : below (fun c => p c = true -> Before c) e -> (forall m nm a x kids t n, Before (El m nm a x kids t) -> Before (El m nm a x (snd (label_kids p n kids)) t)) ->
  (forall m nm a x kids t, After (El m nm a x kids t) -> After (El m nm a x (map unmark kids) t)) ->
  each p act e = Ok e' -> below (fun c => p c = true -> After c) e'.
Proof.
  intros Hb HBl HAu. unfold each. pose proof (label_marked p) as LM.
  assert (H : below (RK 0) (snd (label p 0 e))).
  { apply (label_below p (fun c => p c = true -> Before c)); [|exact Hb]. intros c n m H H1 H2. destruct c as [m0 nm a x kids t|t].
    - rewrite label_eq. specialize (HBl m0 nm a x kids t n). destruct (label_kids p n kids) as [n' kids']. cbn [snd set_mark] in *. split.
      + intros Q. rewrite (p_same _ _ _ _ _ _ m0 x kids t) in Q. split; [destruct HB as [B _]; exact (B _ _ _ _ _ _ _ _ (HBl (H Q)))|]. right. destruct m as [j|]; [|now elim (H1 Q)]. exists j. split; [reflexivity|lia].
      + cbn [mark_of]. intros Q. rewrite (p_same _ _ _ _ _ _ m0 x kids t). destruct (p (El m0 nm a x kids t)) eqn:Z; [reflexivity|]. now rewrite (H2 eq_refl) in Q.
    - split; intros Q; [destruct Hp as [_ Hpm]; cbn in Q; now rewrite Hpm in Q|now elim Q]. }
  assert (M : forall j, marked j (snd (label p 0 e)) = between 0 j (fst (label p 0 e))) by (intros j; now apply LM).
  destruct (label p 0 e) as [n e1]. cbn [fst snd] in *. destruct (loop act 0 n e1) as [e2|] eqn:E; [|discriminate]. cbn [bind]. intros [= <-].
  destruct (all_loop _ _ _ _ E) as [Q1 Q2]; [intros j; rewrite M; unfold between; destruct (_ && _); lia|exact H|]. cbn [Nat.add] in Q1.
  assert (Q3 : below (fun c => forall j, n <= j -> has_mark j c = false) e2).
  { assert (Z : forall j, n <= j -> marked j e2 = 0).
    { intros j Hj. specialize (Q2 j). rewrite M in Q2. unfold between in Q2. destruct (Nat.leb_spec 0 j), (Nat.ltb_spec j n); cbn in Q2; lia. }
    clear -Z. induction e2 as [m nm a x kids t IH|t] using node_ind'; [|exact I]. apply below_eq. cbn [nkids]. assert (Z' : forall j, n <= j -> marked_all j kids = 0) by (intros j Hj; specialize (Z j Hj); now rewrite marked_eq in Z).
    clear Z. induction kids as [|c kids IHk]; [constructor|]. inversion IH; subst. constructor; [|apply IHk; [assumption|]; intros j Hj; specialize (Z' j Hj); rewrite marked_all_cons in Z'; lia].
    assert (Z1 : forall j, n <= j -> marked_here j c = 0) by (intros j Hj; specialize (Z' j Hj); rewrite marked_all_cons in Z'; lia). unfold marked_here in Z1.
    split; [intros j Hj; specialize (Z1 j Hj); destruct (has_mark j c); [lia|reflexivity]|]. apply H1. intros j Hj. specialize (Z1 j Hj). lia. }
  assert (U : below (fun c => p c = true -> After c) e2).
  { eapply below_imp; [|apply (below_and _ _ _ Q1 Q3)]. cbv beta. intros c [[R1 _] R3] Hpc. destruct (R1 Hpc) as [_ [R4|(j & Ej & Hj)]]; [exact R4|]. apply has_mark_of in Ej. rewrite (R3 j Hj) in Ej. discriminate. }
  clear -U HAu HA Hp. induction e2 as [m nm a x kids t IH|t] using node_ind'; [|exact I]. rewrite below_eq in *. cbn [unmark nkids] in *. rewrite Forall_forall in *. intros d Hd. apply in_map_iff in Hd as (c & <- & Hc).
  destruct (U c Hc) as [U1 U2]. split; [|now apply IH]. destruct c as [m' nm' a' x' ks' t'|t']; [|exact U1]. cbn [unmark]. intros Q. destruct HA as [A _]. apply (A m' _ _ _ _ t'). apply HAu, U1. rewrite <- Q. apply p_same.
Qed.
End All.

(* ------------------------------------------------------------------ *)
(** ** What holds of the identifiers *)
(** Identifiers have nothing inside, attributes as in [A], and those of the types have a text of the kind. *)
Definition kinds := list (str * (str -> Prop)).
Definition VT (A : list (str * str) -> Prop) (S0 : kinds) (nm : str) (a : list (str * str)) (x : ostr) (leaf : bool) (t : ostr) : Prop :=
  nm = u "pub-id"%string -> leaf = true /\ A a /\
  forall ty V, In (ty, V) S0 -> dict_get PUB_ID_TYPE a = Some ty -> forall s, x = Some s -> V s.
Definition good (A : list (str * str) -> Prop) (S0 : kinds) (e : node) : Prop := below (TN (VT A S0)) e.
Lemma VT_tail A S0 nm a x b t t' : VT A S0 nm a x b t -> VT A S0 nm a x b t'.
Proof. auto. Qed.
Lemma VT_text A S0 nm a x t x' b : VT A S0 nm a x false t -> VT A S0 nm a x' b t.
Proof. intros H Hn. now destruct (H Hn). Qed.
Lemma VT_other A S0 nm a x leaf t : nm <> u "pub-id"%string -> VT A S0 nm a x leaf t.
Proof. intros H Hn. contradiction. Qed.

Section Keep.
Variable A : list (str * str) -> Prop.
Variable S0 : kinds.
(** a step with a change that keeps the children *)
Lemma keep p act e e' : by_name p ->
  (forall prev c p' l b, p c = true -> TN (VT A S0) c -> act prev c = Ok (p', l, b) ->
     Forall (fun d => TN (VT A S0) d /\ (mark_of d <> None -> p d = true) /\ (nkids d = [] \/ nkids d = nkids c)) l) ->
  good A S0 e -> each p act e = Ok e' -> good A S0 e'.
Proof.
  intros Hp Ha. apply (each_inv p act Hp (VT A S0) (VT_tail A S0) (VT_text A S0)). intros prev c p' l b Hpc [H1 _] Hb E. specialize (Ha _ _ _ _ _ Hpc H1 E). eapply Forall_impl; [|exact Ha]. cbv beta.
  intros d (D1 & D2 & D3). split; [split; assumption|]. rewrite below_eq in *. destruct D3 as [-> | ->]; [constructor|exact Hb].
Qed.
Lemma keep_change p find e e' : by_name p -> (forall m nm a x kids t x' t', p (El m nm a x kids t) = true -> VT A S0 nm a x (null kids) t -> VT A S0 nm a x' (null kids) t') ->
  good A S0 e -> each p (change_annotation find) e = Ok e' -> good A S0 e'.
Proof.
  intros Hp Hv. apply keep; [exact Hp|]. intros prev c p' l b Hpc Hc. destruct c as [m nm a x kids t|t]; [|destruct Hp as [_ Hp]; now rewrite Hp in Hpc].
  cbn [change_annotation]. destruct x as [text|]; [|intros [= <- <- <-]; constructor; [|constructor]; auto]. destruct (find text) as [[[i j]|]|]; cbn [bind]; [|intros [= <- <- <-]; constructor|discriminate].
  intros [= <- <- <-]. constructor; [|constructor]. split; [eapply Hv; eauto|]. split; [|now right]. intros _. destruct Hp as [Hp _]. now rewrite Hp, <- (Hp m nm a (Some text) kids t).
Qed.
(** elements with another name *)
Lemma keep_named name find e e' : name <> "pub-id"%string -> good A S0 e -> each (named name) (change_annotation find) e = Ok e' -> good A S0 e'.
Proof.
  intros Hn. apply keep_change; [apply named_by_name|]. intros m nm a x kids t x' t' E _. apply VT_other. cbn in E. apply streq_true in E. subst nm. intros E. apply Hn.
  clear -E. revert E. generalize "pub-id"%string. induction name as [|c name IH]; intros [|d s]; cbn; try discriminate; [reflexivity|]. intros [= E1 E2]. f_equal; [|now apply IH].
  rewrite <- (Ascii.ascii_N_embedding c), <- (Ascii.ascii_N_embedding d). now f_equal.
Qed.
Lemma link_other c : ext_link c = true -> forall m nm a x kids t, c = El m nm a x kids t -> nm <> u "pub-id"%string.
Proof. intros H m nm a x kids t -> ->. discriminate. Qed.
Lemma new_link_good sp s t : TN (VT A S0) (new_ext_link sp s t) /\ (mark_of (new_ext_link sp s t) <> None -> False) /\ nkids (new_ext_link sp s t) = [].
Proof. split; [apply VT_other; discriminate|]. split; [intros H; now elim H|reflexivity]. Qed.
Lemma keep_doi_link sp find e e' : good A S0 e -> each (pub_id_of "doi") (doi_to_link sp find) e = Ok e' -> good A S0 e'.
Proof.
  apply keep; [apply type_by_name|]. intros prev c p' l b Hpc Hc. unfold doi_to_link. destruct prev as [before|]; [|discriminate]. destruct (find before) as [[i j]|]; [|intros [= <- <- <-]; constructor; [|constructor]; auto].
  destruct c as [m nm a [doi|] kids t|t]; [|discriminate|discriminate]. intros [= <- <- <-]. constructor; [|constructor]. destruct (new_link_good sp (skipn i before ++ doi)%list t) as (N1 & N2 & N3). split; [exact N1|]. split; [intros Q; now apply N2 in Q|now left].
Qed.
Lemma keep_split sp e e' : good A S0 e -> each ext_link (split_link sp) e = Ok e' -> good A S0 e'.
Proof.
  apply keep; [apply named_by_name|]. intros prev c p' l b Hpc Hc.
  assert (Same : Ok (prev, [c], false) = Ok (p', l, b) -> Forall (fun d => TN (VT A S0) d /\ (mark_of d <> None -> ext_link d = true) /\ (nkids d = [] \/ nkids d = nkids c)) l) by (intros [= <- <- <-]; constructor; [|constructor]; auto).
  destruct c as [m nm a [[|y text]|] kids t|]; cbn [split_link]; try exact Same. destruct (dict_get HREF a) as [[|z href]|]; try exact Same.
  destruct (negb _ && negb _); try exact Same. destruct (split_url (y :: text)) as [|h [|h2 others]]; try exact Same. intros [= <- <- <-]. constructor.
  - split; [apply VT_other; eapply link_other; eauto|]. split; [intros _; exact Hpc|now right].
  - apply Forall_forall. intros d Hd. apply (in_map_iff (fun o => new_ext_link sp o None) (h2 :: others)) in Hd as (o & <- & _). destruct (new_link_good sp o None) as (N1 & N2 & N3). split; [exact N1|]. split; [intros Q; now apply N2 in Q|now left].
Qed.
Lemma keep_href f e e' : good A S0 e -> each ext_link (cut_href f) e = Ok e' -> good A S0 e'.
Proof.
  apply keep; [apply named_by_name|]. intros prev c p' l b Hpc Hc.
  assert (Same : Ok (prev, [c], false) = Ok (p', l, b) -> Forall (fun d => TN (VT A S0) d /\ (mark_of d <> None -> ext_link d = true) /\ (nkids d = [] \/ nkids d = nkids c)) l) by (intros [= <- <- <-]; constructor; [|constructor]; auto).
  destruct c as [m nm a x kids t|]; cbn [cut_href]; [|exact Same]. destruct (dict_get HREF a) as [[|z href]|]; try exact Same. destruct (find_ext_link f (z :: href)) as [i j]. intros [= <- <- <-]. constructor; [|constructor].
  split; [apply VT_other; eapply link_other; eauto|]. split; [intros _; exact Hpc|now right].
Qed.
(** titles *)
Lemma keep_clean e e' : good A S0 e -> each article_title clean_title e = Ok e' -> good A S0 e'.
Proof.
  apply (each_inv article_title clean_title (named_by_name "article-title") (VT A S0) (VT_tail A S0) (VT_text A S0)). intros prev c p' l b Hpc _ Hb Ea. destruct c as [m nm a x kids t|t]; [|discriminate].
  unfold clean_title in Ea. destruct (remove_quotes prev (El m nm a x kids t)) as [pp e1] eqn:Eq. injection Ea as <- <- <-. constructor; [|constructor].
  set (G := fun d => TP article_title (VT A S0) d /\ below (TP article_title (VT A S0)) d) in *.
  assert (Cut : forall f ks ks' s, cut_last f ks = (ks', s) -> Forall G ks -> Forall G ks').
  { clear. intros f ks. induction ks as [|c ks IHk]; intros ks' s; cbn [cut_last]; [intros [= <- <-]; auto|]. destruct ks as [|c2 ks].
    - destruct (ntail c) as [[|z t]|]; intros [= <- <-]; auto. intros Hf. inversion Hf as [|? ? [F1 F2] _]; subst. constructor; [|constructor]. unfold G. rewrite below_set_tail. split; [|exact F2]. destruct c; exact F1.
    - destruct (cut_last f (c2 :: ks)) as [l'' s''] eqn:E. intros [= <- <-] Hf. inversion Hf as [|? ? F1 F2]; subst. constructor; [exact F1|]. eapply IHk; eauto. }
  apply below_eq in Hb. cbn [nkids] in Hb. change (Forall G kids) in Hb.
  assert (Q : exists x' kids' t', e1 = El m nm a x' kids' t' /\ Forall G kids').
  { cbn [remove_quotes] in Eq. destruct (content (El m nm a x kids t)) as [|c [|c2 rest]]; [injection Eq as <- <-; eauto|injection Eq as <- <-; eauto|]. destruct (match x with Some (c0 :: x') => (add_text_to_previous prev [c0], Some x') | _ => (prev, x) end) as [px xx].
    destruct (has_quotes _ _ _).
    - destruct (truthy (last_tail kids)); [|injection Eq as <- <-; eauto]. destruct (cut_last _ kids) as [kids' s] eqn:Ec. injection Eq as <- <-. do 3 eexists. split; [reflexivity|]. eapply Cut; eauto.
    - destruct (right_quote c); [|injection Eq as <- <-; eauto]. destruct (existsb _ _); injection Eq as <- <-; eauto. }
  destruct Q as (x' & kids' & t' & -> & Q).
  assert (Out : forall x2 k2 t2, Forall G k2 -> G (El m nm a x2 k2 t2)).
  { intros x2 k2 t2 H2. split; [|now apply below_eq]. split; [apply VT_other; intros ->; discriminate|]. intros _. exact Hpc. }
  cbn [remove_comma]. destruct (_ =? 0); [now apply Out|]. destruct (truthy (last_tail kids')); [|now apply Out]. destruct (cut_last _ kids') as [kids2 s] eqn:Ec. apply Out. eapply Cut; eauto.
Qed.
(** new annotations *)
Lemma keep_add find type parse e e' :
  (forall text i j V, find text = Ok (Some (i, j)) -> In (u type, V) S0 -> V (slice text i j)) -> A [(PUB_ID_TYPE, u type)] ->
  good A S0 e -> add_annotation find (new_pub_id type) parse e = Ok e' -> good A S0 e'.
Proof.
  intros Hf HA. apply (each_inv mixed_citation (annotate find (new_pub_id type) parse) (named_by_name "mixed-citation") (VT A S0) (VT_tail A S0) (VT_text A S0)). intros prev c p' l b Hpc H1 Hb.
  set (G := fun d => TP mixed_citation (VT A S0) d /\ below (TP mixed_citation (VT A S0)) d) in *.
  assert (Same : Ok (prev, [c], false) = Ok (p', l, b) -> Forall G l) by (intros [= <- <- <-]; constructor; [split; assumption|constructor]).
  assert (New : forall text i j t, find text = Ok (Some (i, j)) -> G (set_tail t (new_pub_id type (slice text i j)))).
  { intros text i j t E. split; [|exact I]. split; [|intros Q; now elim Q]. intros _. split; [reflexivity|]. split; [exact HA|]. intros ty V Hin Ety s [= <-]. assert (ty = u type) as -> by (clear -Ety; vm_compute in Ety; injection Ety as <-; reflexivity). exact (Hf _ _ _ _ E Hin). }
  destruct c as [m nm a x kids t|t]; [|discriminate].
  assert (Out : forall x2 k2 t2, Forall G k2 -> G (El m nm a x2 k2 t2)).
  { intros x2 k2 t2 H2. split; [|now apply below_eq]. split; [apply VT_other; intros ->; discriminate|]. intros _. exact Hpc. }
  apply below_eq in Hb. cbn [nkids] in Hb. change (Forall G kids) in Hb. unfold annotate.
  destruct (annotate_text find (new_pub_id type) (El m nm a x kids t)) as [[e1|]|] eqn:E; cbn [bind]; [| |discriminate].
  - intros [= <- <- <-]. constructor; [|constructor]. destruct x as [[|y text]|]; try discriminate. cbn [annotate_text] in E. destruct (find (y :: text)) as [[[i j]|]|] eqn:Ef; cbn [bind] in E; [|discriminate|discriminate]. injection E as <-.
    apply Out. constructor; [eapply New; eauto|exact Hb].
  - destruct (first_kid is_element _ kids) as [[kids'|]|] eqn:Et; cbn [bind]; [| |discriminate].
    + intros [= <- <- <-]. constructor; [|constructor]. apply Out. eapply first_kid_all; [exact Et|exact Hb|]. intros d new [[D1 D2] D3] _. unfold annotate_tail.
      destruct (ntail d) as [[|y text]|]; try discriminate. destruct (find (y :: text)) as [[[i j]|]|] eqn:Ef; cbn [bind]; [|discriminate|discriminate]. intros [= <-]. constructor; [|constructor; [eapply New; eauto|constructor]].
      split; [|now apply below_set_tail]. destruct d; (split; [exact D1|exact D2]).
    + destruct parse; [|exact Same]. destruct (first_kid (named "comment") _ kids) as [[kids'|]|] eqn:Ec; cbn [bind]; [| |discriminate]; [|exact Same]. intros [= <- <- <-]. constructor; [|constructor]. apply Out.
      eapply first_kid_all; [exact Ec|exact Hb|]. intros d new [[D1 D2] D3] Hd. destruct d as [m' nm' a' [[|y text]|] ks t'|]; try discriminate. cbn [annotate_comment]. destruct (find (y :: text)) as [[[i j]|]|] eqn:Ef; cbn [bind]; [|discriminate|discriminate].
      intros [= <-]. constructor; [|constructor; [eapply New; eauto|constructor]]. split; [|exact D3]. split; [apply VT_other; intros ->; discriminate|]. exact D2.
Qed.
Lemma keep_add_if present find type parse e e' :
  (forall text i j V, find text = Ok (Some (i, j)) -> In (u type, V) S0 -> V (slice text i j)) -> A [(PUB_ID_TYPE, u type)] ->
  good A S0 e -> add_if_not_present present find type parse e = Ok e' -> good A S0 e'.
Proof. intros Hf HA H. unfold add_if_not_present. destruct (any present e); [now intros [= <-]|]. now apply keep_add. Qed.
End Keep.

(** the first step *)
Section Lower.
Variable lower : str -> str.
(** the type is written in lower case if it is known *)
Definition known_case (a : list (str * str)) : Prop :=
  forall ty known, dict_get PUB_ID_TYPE a = Some ty -> In known KNOWN_PUB_ID_TYPES -> lower ty = known -> ty = known.
Hypothesis Hlower : forall ty, In ty KNOWN_PUB_ID_TYPES -> lower ty = ty.
Lemma known_new type : In (u type) KNOWN_PUB_ID_TYPES -> known_case [(PUB_ID_TYPE, u type)].
Proof. intros H ty known E Hk <-. assert (E' : Some (u type) = Some ty) by (rewrite <- E; reflexivity). injection E' as <-. symmetry. now apply Hlower. Qed.
Lemma lower_result prev m nm a x kids t p' l b : lower_type lower prev (El m nm a x kids t) = Ok (p', l, b) ->
  b = false /\ exists a', l = [El m nm a' x kids t] /\ (lower [] = [] -> known_case a').
Proof.
  cbn [lower_type]. destruct (dict_get PUB_ID_TYPE a) as [[|z ty]|] eqn:Et.
  - intros [= <- <- <-]. split; [reflexivity|]. exists a. split; [reflexivity|]. intros Hl ty known E Hk <-. rewrite Et in E. injection E as <-. now rewrite Hl.
  - destruct (mem (lower (z :: ty)) KNOWN_PUB_ID_TYPES) eqn:Em; intros [= <- <- <-]; (split; [reflexivity|]); eexists; (split; [reflexivity|]); intros _ ty' known E Hk El.
    + rewrite dict_get_set_same in E. injection E as <-. apply mem_In in Em. rewrite (Hlower _ Em) in El. exact El.
    + rewrite Et in E. injection E as <-. subst known. apply mem_In in Hk. congruence.
  - intros [= <- <- <-]. split; [reflexivity|]. exists a. split; [reflexivity|]. intros _ ty known E. congruence.
Qed.
Lemma fix_types e e' : lower [] = [] -> good (fun _ => True) [] e -> convert_types lower e = Ok e' -> good known_case [] e'.
Proof.
  intros Hl Hg E.
  assert (G1 : good (fun _ => True) [] e').
  { revert E. apply keep; [apply named_by_name| |exact Hg]. intros prev c p' l b Hpc Hc E. destruct c as [m nm a x kids t|]; [|discriminate].
    destruct (lower_result _ _ _ _ _ _ _ _ _ _ E) as (_ & a' & -> & _). constructor; [|constructor]. split; [|split; [intros _; exact Hpc|now right]]. intros Hn. destruct (Hc Hn) as [H _]. split; [exact H|]. split; [exact I|]. intros ty' V []. }
  assert (G2 : below (fun c => pub_id c = true -> match c with El _ _ a _ _ _ => known_case a | Mi _ => True end) e').
  { revert E. apply (each_all pub_id (lower_type lower) (named_by_name "pub-id") (fun _ => True) (fun c => match c with El _ _ a _ _ _ => known_case a | Mi _ => True end)).
    - split; auto.
    - split; auto.
    - intros prev c p' l b Hp _ E. destruct c as [m nm a x kids t|]; [|discriminate]. destruct (lower_result _ _ _ _ _ _ _ _ _ _ E) as (-> & a' & -> & K). split; [reflexivity|]. right. eexists. split; [reflexivity|].
      repeat (split; [first [reflexivity|exact Hp|exact I]|]). now apply K.
    - eapply below_imp; [|exact Hg]. auto.
    - auto.
    - auto. }
  eapply below_imp; [|apply (below_and _ _ _ G1 G2)]. cbv beta. intros c [H1 H2]. destruct c as [m nm a x kids t|t]; [|exact I]. intros Hn. destruct (H1 Hn) as (H3 & _ & H4). split; [exact H3|]. split; [|exact H4].
  apply H2. unfold pub_id. cbn [named]. now rewrite Hn, streq_refl.
Qed.
End Lower.
(** identifiers of a type *)
Lemma fix_type A S0 type find (V : str -> Prop) e e' : ~ In (u type) (map fst S0) ->
  (forall text i j, find text = Ok (Some (i, j)) -> V (slice text i j)) ->
  good A S0 e -> each (pub_id_of type) (change_annotation find) e = Ok e' -> good A ((u type, V) :: S0) e'.
Proof.
  intros Hnot Hv Hg E.
  assert (G1 : good A S0 e').
  { revert E. apply keep_change; [apply type_by_name| |exact Hg]. intros m nm a x kids t x' t' Hp H Hn. destruct (H Hn) as (H1 & HA & _). split; [exact H1|]. split; [exact HA|]. intros ty W Hin Et. apply type_of_pub in Hp as [_ Hp]. rewrite Hp in Et. injection Et as <-. elim Hnot. apply in_map_iff. exists (u type, W). auto. }
  assert (G2 : below (fun c => pub_id_of type c = true -> match c with El _ _ _ x kids _ => kids = [] /\ forall s, x = Some s -> V s | Mi _ => True end) e').
  { revert E. apply (each_all (pub_id_of type) (change_annotation find) (type_by_name type) (fun c => nkids c = []) (fun c => match c with El _ _ _ x kids _ => kids = [] /\ forall s, x = Some s -> V s | Mi _ => True end)).
    - split; intros; cbn in *; congruence.
    - split; intros; cbn in *; intuition congruence.
    - intros prev c p' l b Hp Hk. destruct c as [m nm a x kids t|t]; [|discriminate]. cbn [nkids] in Hk. subst kids. cbn [change_annotation]. destruct x as [text|].
      + destruct (find text) as [[[i j]|]|] eqn:Ef; cbn [bind]; [| |discriminate]; intros [= <- <- <-]; (split; [reflexivity|]); [right|now left].
        eexists. split; [reflexivity|]. repeat (split; [first [reflexivity|exact Hp]|]). intros s [= <-]. exact (Hv _ _ _ Ef).
      + intros [= <- <- <-]. split; [reflexivity|]. right. eexists. split; [reflexivity|]. repeat (split; [first [reflexivity|exact Hp]|]). discriminate.
    - eapply below_imp; [|exact Hg]. intros c Hc Hp. destruct c as [m nm a x kids t|t]; [|reflexivity]. apply type_of_pub in Hp as [-> _]. destruct (Hc eq_refl) as [Q _]. destruct kids; [reflexivity|discriminate].
    - intros m nm a x kids t n H. cbn in H. subst kids. reflexivity.
    - intros m nm a x kids t [-> H]. split; [reflexivity|exact H]. }
  eapply below_imp; [|apply (below_and _ _ _ G1 G2)]. cbv beta. intros c [H1 H2]. destruct c as [m nm a x kids t|t]; [|exact I]. intros Hn. destruct (H1 Hn) as (H3 & HA & H4). split; [exact H3|]. split; [exact HA|]. intros ty W [[= <- <-]|Hin] Et; [|exact (H4 _ _ Hin Et)].
  apply H2. unfold pub_id_of, pub_id. cbn [named attr]. rewrite Hn, Et, streq_refl. cbn [andb]. now apply ostreq_true.
Qed.

(* ------------------------------------------------------------------ *)
(** ** C104 *)
Section Code.
Variables sp wd dg : N -> bool.
Variable fold : N -> N.
Variable punct : N -> bool.
Variable lower : str -> str.
Notation fix_reference := (re_fix_reference sp wd dg fold punct lower).
Notation fix_document := (re_fix_document sp wd dg fold punct lower).
Hypothesis Hc : classes_ok sp wd dg.
Hypothesis Hu : usual sp wd dg fold.
Hypothesis Hlower : forall ty, In ty KNOWN_PUB_ID_TYPES -> lower ty = ty.
Hypothesis Hempty : lower [] = [].

(** the known types of identifiers *)
Definition known_types : list str :=
  map u ["accession"; "archive"; "ark"; "art-access-id"; "arxiv"; "coden"; "doaj"; "doi"; "handle"; "index"; "isbn"; "manuscript"; "medline"; "mr"; "other"; "pii"; "pmcid"; "pmid";
         "publisher-id"; "sici"; "std-designation"; "zbl"]%string.
Lemma known_types_eq : KNOWN_PUB_ID_TYPES = known_types.
Proof. reflexivity. Qed.
(** what an identifier looks like *)
Record identifier (ty s : str) : Prop := mkIdentifier {
  id_doi : ty = u "doi"%string -> exists h r, s = h ++ r /\ doi_head dg h;
  id_pmid : ty = u "pmid"%string -> PropFinders.number dg 1 10 s;
  id_pmcid : ty = u "pmcid"%string -> exists word ds, s = word ++ ds /\ any_case fold (u "PMC"%string) word /\ all dg ds /\ ds <> [];
  id_pii : ty = u "pii"%string -> pii_form wd s }.
Definition text_of (c : node) : ostr := match c with El _ _ _ x _ _ => x | Mi _ => None end.
Definition nothing_inside (c : node) : Prop := pub_id c = true -> nkids c = [].
Definition fine_identifier (c : node) : Prop := pub_id c = true -> nkids c = [] /\
  (forall ty known, attr PUB_ID_TYPE c = Some ty -> In known known_types -> lower ty = known -> ty = known) /\
  (forall ty s, attr PUB_ID_TYPE c = Some ty -> text_of c = Some s -> identifier ty s).

Lemma slice_at (a b c : str) : slice (a ++ b ++ c) (length a) (length (a ++ b)) = b.
Proof. unfold slice. rewrite skipn_app, skipn_all, Nat.sub_diag. cbn [app skipn]. rewrite app_length. replace (length a + length b - length a) with (length b) by lia. rewrite firstn_app, firstn_all, Nat.sub_diag. cbn. apply app_nil_r. Qed.
Lemma finds_slice f S0 text i j : finds f S0 -> finding f text = Ok (Some (i, j)) -> exists p pre post q, S0 p pre (slice text i j) post q.
Proof.
  intros H E. unfold finding in E. injection E as E. specialize (H text). rewrite E in H. destruct H as (a & pre & id & post & q & -> & H & -> & -> & _). exists (last_of a), pre, post, q.
  replace (a ++ pre ++ id ++ post ++ q) with ((a ++ pre) ++ id ++ (post ++ q)) by now rewrite <- !app_assoc. rewrite (app_assoc a pre id), slice_at. exact H.
Qed.
Definition is_doi_text (s : str) : Prop := exists h r, s = h ++ r /\ doi_head dg h.
Definition is_pmcid (s : str) : Prop := exists word ds, s = word ++ ds /\ any_case fold (u "PMC"%string) word /\ all dg ds /\ ds <> [].
Lemma doi_slice token nopunct nopunct_space text i j : find_doi sp wd dg token nopunct nopunct_space text = Ok (Some (i, j)) -> is_doi_text (slice text i j).
Proof.
  intros E. destruct (C49_doi sp wd dg token nopunct nopunct_space Hc text) as (r & Er & Hr). unfold find_doi in E. rewrite Er in E. injection E as ->. destruct Hr as (a & h & b & c & -> & Hh & -> & -> & _).
  rewrite <- app_length, slice_at. exists h, b. auto.
Qed.
Definition ids : kinds :=
  [(u "pmcid"%string, is_pmcid); (u "pmid"%string, PropFinders.number dg 1 10); (u "pii"%string, pii_form wd); (u "doi"%string, is_doi_text)].

(** After the change identifiers are of their type. *)
Theorem C104_identifiers ref ref' : below nothing_inside ref -> fix_reference ref = Ok ref' -> below fine_identifier ref'.
Proof.
  intros Hn. unfold re_fix_reference, ModelJats.fix_reference, steps. cbn [foldM].
  assert (G : good (fun _ => True) [] ref).
  { eapply below_imp; [|exact Hn]. intros c H. destruct c as [m nm a x kids t|]; [|exact I]. intros ->. specialize (H eq_refl). cbn in H. subst kids. split; [reflexivity|]. split; [exact I|]. intros ty V []. }
  assert (KN : forall type, In (u type) KNOWN_PUB_ID_TYPES -> known_case lower [(PUB_ID_TYPE, u type)]) by (intros; now apply known_new).
  destruct (convert_types lower ref) as [e1|] eqn:E1; [|discriminate]. cbn [bind]. apply (fix_types lower Hlower _ _ Hempty G) in E1. clear G Hn.
  destruct (fix_article_title sp dg e1) as [e2|] eqn:E2; [|discriminate]. cbn [bind].
  assert (G2 : good (known_case lower) [] e2).
  { unfold fix_article_title in E2. destruct (each article_title (change_annotation (find_title sp dg)) e1) as [e11|] eqn:E11; [|discriminate]. cbn [bind] in E2. revert E2. apply keep_clean. revert E11. apply keep_named; [discriminate|exact E1]. }
  destruct (fix_doi _ _ _ _ _ _ e2) as [e3|] eqn:E3; [|discriminate]. cbn [bind]. apply (fix_type (known_case lower) [] "doi" _ is_doi_text) in E3; [|intros []|intros text i j; apply doi_slice|exact G2].
  destruct (replace_doi _ _ e3) as [e4|] eqn:E4; [|discriminate]. cbn [bind]. apply keep_doi_link with (1 := E3) in E4.
  destruct (fix_ext_link _ _ e4) as [e5|] eqn:E5; [|discriminate]. cbn [bind].
  assert (G5 : good (known_case lower) [(u "doi"%string, is_doi_text)] e5).
  { unfold fix_ext_link in E5. destruct (each ext_link (split_link sp) e4) as [e41|] eqn:E41; [|discriminate]. cbn [bind] in E5. destruct (each ext_link (change_annotation _) e41) as [e42|] eqn:E42; [|discriminate]. cbn [bind] in E5.
    revert E5. apply keep_href. revert E42. apply keep_named; [discriminate|]. revert E41. apply keep_split. exact E4. }
  destruct (fix_pii _ e5) as [e6|] eqn:E6; [|discriminate]. cbn [bind]. apply (fix_type (known_case lower) [(u "doi"%string, is_doi_text)] "pii" _ (pii_form wd)) in E6; [|intros [Q|[]]; discriminate| |exact G5].
  2: { intros text i j E. apply (finds_slice _ _ _ _ _ (C103_pii_valid sp wd dg fold Hu)) in E as (p & pre & post & q & _ & _ & H & _). exact H. }
  destruct (fix_pmid _ e6) as [e7|] eqn:E7; [|discriminate]. cbn [bind]. apply (fix_type (known_case lower) [(u "pii"%string, pii_form wd); (u "doi"%string, is_doi_text)] "pmid" _ (PropFinders.number dg 1 10)) in E7; [|intros [Q|[Q|[]]]; discriminate| |exact E6].
  2: { intros text i j E. apply (finds_slice _ _ _ _ _ (C103_pmid_fix sp wd dg fold Hu)) in E as (p & pre & post & q & _ & H & _). exact H. }
  destruct (fix_pmcid _ e7) as [e8|] eqn:E8; [|discriminate]. cbn [bind].
  assert (VP : forall text i j, finding (find_pmcid sp wd dg fold) text = Ok (Some (i, j)) -> is_pmcid (slice text i j)).
  { intros text i j E. apply (finds_slice _ _ _ _ _ (C103_pmcid sp wd dg fold)) in E as (p & pre & post & q & _ & H & _). exact H. }
  apply (fix_type (known_case lower) [(u "pmid"%string, PropFinders.number dg 1 10); (u "pii"%string, pii_form wd); (u "doi"%string, is_doi_text)] "pmcid" _ is_pmcid) in E8; [|intros [Q|[Q|[Q|[]]]]; discriminate|exact VP|exact E7]. fold ids in E8.
  destruct (add_pmid _ e8) as [e9|] eqn:E9; [|discriminate]. cbn [bind]. apply (keep_add_if (known_case lower) ids) in E9; [| |apply KN; cbn; tauto|exact E8].
  2: { intros text i j V E Hin. destruct Hin as [Q|[Q|[Q|[Q|[]]]]]; try discriminate Q. injection Q as <-. apply (finds_slice _ _ _ _ _ (C103_pmid sp wd dg fold Hu)) in E as (p & pre & post & q & _ & H & _). exact H. }
  destruct (add_pmcid _ e9) as [e10|] eqn:E10; [|discriminate]. cbn [bind]. apply (keep_add_if (known_case lower) ids) in E10; [| |apply KN; cbn; tauto|exact E9].
  2: { intros text i j V E Hin. destruct Hin as [Q|[Q|[Q|[Q|[]]]]]; try discriminate Q. injection Q as <-. exact (VP _ _ _ E). }
  destruct (add_pii_valid _ e10) as [e11|] eqn:E11; [|discriminate]. cbn [bind]. apply (keep_add_if (known_case lower) ids) in E11; [| |apply KN; cbn; tauto|exact E10].
  2: { intros text i j V E Hin. destruct Hin as [Q|[Q|[Q|[Q|[]]]]]; try discriminate Q. injection Q as <-. apply (finds_slice _ _ _ _ _ (C103_pii_valid sp wd dg fold Hu)) in E as (p & pre & post & q & _ & _ & H & _). exact H. }
  destruct (add_pii_other _ e11) as [e12|] eqn:E12; [|discriminate]. cbn [bind]. apply (keep_add_if (known_case lower) ids) in E12; [| |apply KN; cbn; tauto|exact E11].
  2: { intros text i j V E Hin. destruct Hin as [Q|[Q|[Q|[Q|[]]]]]; discriminate Q. }
  destruct (add_wos _ e12) as [e13|] eqn:E13; [|discriminate]. cbn [bind]. apply (keep_add (known_case lower) ids) in E13; [| |apply KN; cbn; tauto|exact E12].
  2: { intros text i j V E Hin. destruct Hin as [Q|[Q|[Q|[Q|[]]]]]; discriminate Q. }
  destruct (add_doi _ _ _ _ _ _ e13) as [e14|] eqn:E14; [|discriminate]. cbn [bind]. apply (keep_add_if (known_case lower) ids) in E14; [| |apply KN; cbn; tauto|exact E13].
  2: { intros text i j V E Hin. destruct Hin as [Q|[Q|[Q|[Q|[]]]]]; try discriminate Q. injection Q as <-. eapply doi_slice. exact E. }
  intros [= <-]. eapply below_imp; [|exact E14]. intros c H. destruct c as [m nm a x kids t|]; [|discriminate]. intros Hp. apply streq_true in Hp. destruct (H Hp) as (H1 & H2 & H3).
  split; [destruct kids; [reflexivity|discriminate]|]. split; [exact H2|]. cbn [attr text_of]. intros ty s Ea Ex.
  split; intros ->.
  - exact (H3 _ is_doi_text (or_intror (or_intror (or_intror (or_introl eq_refl)))) Ea s Ex).
  - exact (H3 _ (PropFinders.number dg 1 10) (or_intror (or_introl eq_refl)) Ea s Ex).
  - exact (H3 _ is_pmcid (or_introl eq_refl) Ea s Ex).
  - exact (H3 _ (pii_form wd) (or_intror (or_intror (or_introl eq_refl))) Ea s Ex).
Qed.
(** the same for all references of a document *)
Theorem C104_document root root' : Forall (below nothing_inside) (refs root) -> fix_document root = Ok root' -> Forall (below fine_identifier) (refs root') /\ length (refs root') = length (refs root).
Proof.
  intros H E. unfold re_fix_document in E. apply C70_references in E. fold fix_reference in E. revert H. induction E as [|r r' l l' E1 E2 IH]; [split; [constructor|reflexivity]|]. intros H. inversion H as [|? ? Ha Hb]; subst. destruct (IH Hb) as [I1 I2].
  split; [constructor; [|exact I1]|cbn; congruence]. eapply C104_identifiers; [exact Ha|exact E1].
Qed.
(** The text of a reference with neither links nor DOIs nor comments, whose titles and
    identifiers have nothing inside, and whose identifiers are to be found in their text, stays. *)
Theorem C104_text ref ref' :
  simple_reference (find_pii_valid sp wd dg fold) (find_pmid_fix sp wd dg fold) (find_pmcid sp wd dg fold) lower ref ->
  fix_reference ref = Ok ref' -> content ref' = content ref.
Proof.
  apply C68_simple; [exact Hc| |exact Hlower].
  assert (R : forall f S0, finds f S0 -> range f) by (intros f S0 H t i j E; now apply (finds_range f S0 H) in E).
  split; [apply (R _ _ (C103_pii_valid sp wd dg fold Hu))|]. split; [apply (R _ _ (C103_pii_other sp wd dg fold))|]. split; [apply (R _ _ (C103_pmid sp wd dg fold Hu))|].
  split; [apply (R _ _ (C103_pmid_fix sp wd dg fold Hu))|]. split; [apply (R _ _ (C103_pmcid sp wd dg fold))|apply (R _ _ (C103_wos sp wd dg fold Hu))].
Qed.

(** [t] is [s] without punctuation and white space *)
Inductive left_out : str -> str -> Prop :=
| lo_nil : left_out [] []
| lo_drop c s t : punct c = true \/ sp c = true -> left_out s t -> left_out (c :: s) t
| lo_keep c s t : punct c = false -> sp c = false -> left_out s t -> left_out (c :: s) (c :: t).
Lemma left_out_spec s t : remove_punct_or_whitespace sp punct s = t <-> left_out s t.
Proof.
  split.
  - intros <-. induction s as [|c s IH]; [constructor|]. cbn [remove_punct_or_whitespace filter]. destruct (punct c) eqn:E1, (sp c) eqn:E2; cbn [orb negb]; first [apply lo_drop; auto; fail|apply lo_keep; auto].
  - induction 1 as [|c s t H _ IH|c s t H1 H2 _ IH]; [reflexivity| |]; cbn [remove_punct_or_whitespace filter].
    + destruct H as [->| ->]; [|rewrite orb_true_r]; exact IH.
    + rewrite H1, H2. cbn [orb negb]. f_equal. exact IH.
Qed.
(** the DOI [b2] that comes after [a/b1] is also within it, perhaps with other punctuation and
    white space *)
Definition repeats (a b1 b2 : str) : Prop :=
  infix b2 (a ++ 47%N :: b1) \/ exists x y, left_out b2 x /\ left_out (a ++ 47%N :: b1) y /\ infix x y.
(** A DOI within a DOI is removed, with the white space before it, exactly if it repeats it. *)
Theorem C104_duplicate a b : ~ In 47%N a -> exists r, remove_duplicate_doi sp wd dg (remove_punct_or_whitespace sp punct) (a ++ 47%N :: b) = Ok r /\
  match find_doi_pattern wd dg b with
  | None => r = a ++ 47%N :: b
  | Some (i, _) => exists b1 b2, b = b1 ++ b2 /\ (i <= length b -> length b1 = i) /\
      ((repeats a b1 b2 /\ exists w, a ++ 47%N :: b1 = r ++ w /\ all sp w /\ last_not sp r) \/ (~ repeats a b1 b2 /\ r = a ++ 47%N :: b))
  end.
Proof.
  intros Ha. destruct (C76_duplicate sp wd dg (remove_punct_or_whitespace sp punct) (a ++ 47%N :: b)) as [_ H]. destruct (H a b eq_refl Ha) as (r & Er & Hr). exists r. split; [exact Er|].
  destruct (find_doi_pattern wd dg b) as [[i j]|]; [|exact Hr]. exists (firstn i b), (skipn i b). split; [symmetry; apply firstn_skipn|]. split; [intros; now apply firstn_length_le|].
  assert (Q : repeated (remove_punct_or_whitespace sp punct) a b i <-> repeats a (firstn i b) (skipn i b)).
  { unfold repeated, repeats. cbv zeta. split; (intros [K|K]; [now left|right]).
    - do 2 eexists. split; [apply left_out_spec; reflexivity|]. split; [apply left_out_spec; reflexivity|exact K].
    - destruct K as (x & y & Hx & Hy & K). apply left_out_spec in Hx, Hy. now subst. }
  rewrite Q in Hr. exact Hr.
Qed.

(** *** DOIs followed by a repeated part and [pii] *)
Lemma split_last_spec c s : match split_last c s with
  | Some (a, r) => exists b, r = c :: b /\ s = a ++ c :: b /\ ~ In c b
  | None => ~ In c s
  end.
Proof.
  induction s as [|x s IH]; [intros []|]. cbn [split_last]. destruct (split_last c s) as [[a r]|].
  - destruct IH as (b & -> & -> & H). exists b. auto.
  - destruct (N.eqb x c) eqn:E.
    + apply N.eqb_eq in E. subst. exists s. auto.
    + apply N.eqb_neq in E. intros [K|K]; [congruence|contradiction].
Qed.
(** [t] is [s] without punctuation *)
Inductive no_marks : str -> str -> Prop :=
| nm_nil : no_marks [] []
| nm_drop c s t : punct c = true -> no_marks s t -> no_marks (c :: s) t
| nm_keep c s t : punct c = false -> no_marks s t -> no_marks (c :: s) (c :: t).
Lemma no_marks_spec s t : remove_punct punct s = t <-> no_marks s t.
Proof.
  split.
  - intros <-. induction s as [|c s IH]; [constructor|]. cbn [remove_punct filter]. destruct (punct c) eqn:E1; cbn [negb]; [now apply nm_drop|now apply nm_keep].
  - induction 1 as [|c s t H _ IH|c s t H1 _ IH]; [reflexivity| |]; cbn [remove_punct filter].
    + rewrite H. exact IH.
    + rewrite H1. cbn [negb]. f_equal. exact IH.
Qed.
(** the last word [y] is also within [x], perhaps with other punctuation; three characters are
    needed *)
Definition repeats_word (x y : str) : Prop :=
  3 <= length y /\ (infix y x \/ exists x' y', no_marks x x' /\ no_marks y y' /\ 3 <= length y' /\ infix y' x').
(** [r] is [s] without the white space at its end *)
Definition trimmed (s r : str) : Prop := exists w, s = r ++ w /\ all sp w /\ last_not sp r.
Theorem C104_pii doi :
  ((forall d, doi <> d ++ u "[pii]"%string) /\ strip_pii_from_doi sp (remove_punct punct) doi = doi) \/
  exists d e, doi = d ++ u "[pii]"%string /\ trimmed d e /\
    ((~ In 32%N e /\ strip_pii_from_doi sp (remove_punct punct) doi = e) \/
     exists x y, e = x ++ 32%N :: y /\ ~ In 32%N y /\
       ((repeats_word x y /\ trimmed x (strip_pii_from_doi sp (remove_punct punct) doi)) \/
        (~ repeats_word x y /\ strip_pii_from_doi sp (remove_punct punct) doi = e))).
Proof.
  unfold strip_pii_from_doi. destruct (ends_with (u "[pii]"%string) doi) eqn:E; cbn [negb].
  - right. unfold ends_with in E. apply starts_with_spec in E as [t E]. apply (f_equal (@rev N)) in E. rewrite rev_involutive, rev_app_distr, rev_involutive in E.
    exists (rev t). set (d := rev t) in *. assert (Ef : firstn (length doi - 5) doi = d).
    { rewrite E, app_length. change (length (u "[pii]"%string)) with 5. replace (length d + 5 - 5) with (length d) by lia. rewrite firstn_app, firstn_all, Nat.sub_diag, firstn_O. apply app_nil_r. }
    rewrite Ef. exists (ModelJatsText.rstrip sp d). split; [exact E|]. split; [apply rstrip_spec|]. set (e := ModelJatsText.rstrip sp d).
    pose proof (split_last_spec 32%N e) as S. destruct (split_last 32 e) as [[x rest]|]; [|left; auto].
    destruct S as (y & -> & Ee & Hy). cbn [tl]. right. exists x, y. split; [exact Ee|]. split; [exact Hy|].
    assert (R : repeats_word x y <-> 3 <= length y /\ (contains y x = true \/ (3 <= length (remove_punct punct y) /\ contains (remove_punct punct y) (remove_punct punct x) = true))).
    { unfold repeats_word. rewrite !contains_spec. split; (intros [L [H|H]]; split; auto).
      - destruct H as (x' & y' & Hx & Hy' & H). apply no_marks_spec in Hx, Hy'. subst. auto.
      - right. exists (remove_punct punct x), (remove_punct punct y). repeat split; try (now apply no_marks_spec); apply H. }
    rewrite R. destruct (Nat.ltb_spec (length y) 3) as [L|L]; [right; split; [lia|reflexivity]|].
    destruct (contains y x) eqn:E1; [left; split; [auto|apply rstrip_spec]|].
    destruct (Nat.ltb_spec (length (remove_punct punct y)) 3) as [L2|L2]; [right; split; [intros [_ [K|[K _]]]; [discriminate|lia]|reflexivity]|].
    destruct (contains (remove_punct punct y) (remove_punct punct x)) eqn:E2; [left; split; [auto|apply rstrip_spec]|].
    right. split; [intros [_ [K|[_ K]]]; discriminate|reflexivity].
  - left. split; [|reflexivity]. intros d ->. enough (ends_with (u "[pii]"%string) (d ++ u "[pii]"%string) = true) by congruence. unfold ends_with. rewrite rev_app_distr. apply starts_with_spec. now exists (rev d).
Qed.
End Code.

(* ------------------------------------------------------------------ *)
(** ** Examples: the tests of the repository (tests/fix_jats_xml_test.py) *)
(** [\p{Punct}], for ASCII *)
Definition ascii_punct (c : N) : bool := existsb (N.eqb c) (u "!""#%&'()*,-./:;?@[\]_{}"%string).
Definition ex_fix_ref : node -> res node := re_fix_reference ascii_space ascii_word ascii_digit lower_ascii ascii_punct (map lower_ascii).
Definition other_el (name s : string) (t : ostr) : node := El None (u name) [] (Some (u s)) [] t.
Definition id_el (ty s : string) (t : ostr) : node := set_tail t (new_pub_id ty (u s)).
Definition mixed (x : ostr) (kids : list node) : node := El None (u "ref"%string) [] None [El None (u "mixed-citation"%string) [] x kids None] None.
Fixpoint elements (p : node -> bool) (e : node) : list str :=
  match e with El _ _ _ _ kids _ => flat_map (fun c => (if p c then [content c] else []) ++ elements p c) kids | Mi _ => [] end.
Definition shown (p : node -> bool) (ref : node) : list str := match ex_fix_ref ref with Ok r => elements p r | Err _ => [u "error"%string] end.
Definition us (l : list string) : list str := map u l.
Definition txt (s : string) : ostr := Some (u s).
Open Scope string_scope.
Open Scope list_scope.
Notation doi := (pub_id_of "doi").
Example C104_test_doi :
  map (shown doi)
    [ mixed (txt "doi: ") [id_el "doi" "10.12345/abc/1" None];
      mixed (txt "doi: ") [id_el "doi" "not a doi" None];
      mixed (txt "some text") [id_el "doi" "doi:10.12345/abc/1" None];
      mixed None [id_el "doi" "doi:10.12345/abc/1" None];
      mixed None [other_el "other" "other text" None; id_el "doi" "doi:10.12345/abc/1" None];
      mixed None [other_el "other" "other text" (txt "tail text"); id_el "doi" "doi:10.12345/abc/1" None];
      mixed (txt "doi: ") [id_el "doi" "10.12345/abc/1 [doi]" None];
      mixed (txt "doi: ") [id_el "doi" "10.12345/abc/1 [doi]" (txt "tail text")];
      mixed (txt "doi: ") [id_el "doi" "10.12345/abc/1 [pii]" (txt "tail text")];
      mixed (txt "doi: ") [id_el "doi" "10.12345/abc/1.doi-duplicate  doi-duplicate [pii]" (txt "tail text")];
      mixed (txt "doi: ") [id_el "doi" "10.12345/abc/1.doi.duplicate  doi-duplicate [pii]" (txt "tail text")];
      mixed (txt "doi: ") [id_el "doi" "10.12345/abc/1; 10.12345/abc/1" (txt "tail text")];
      mixed (txt "doi: ") [id_el "doi" "10.12345/abc/1.ab-123; 10.12345/abc/1.ab.123" (txt "tail text")];
      mixed (txt "doi: 10.12345/abc/1. PubMed PMID: 12345") [];
      mixed (txt "doi:10.12345/abc/1") [];
      mixed (txt "10.12345/abc/1.") [];
      mixed (txt "[10.12345/abc/1]") [] ]
  = [us ["10.12345/abc/1"]; []; us ["10.12345/abc/1"]; us ["10.12345/abc/1"]; us ["10.12345/abc/1"]; us ["10.12345/abc/1"]; us ["10.12345/abc/1"]; us ["10.12345/abc/1"];
     us ["10.12345/abc/1"]; us ["10.12345/abc/1.doi-duplicate"]; us ["10.12345/abc/1.doi.duplicate"]; us ["10.12345/abc/1"]; us ["10.12345/abc/1.ab-123"];
     us ["10.12345/abc/1"]; us ["10.12345/abc/1"]; us ["10.12345/abc/1"]; us ["10.12345/abc/1"]].
Proof. vm_compute. reflexivity. Qed.
Definition link_el (text url : string) : node := El None (u "ext-link") [(u "ext-link-type", u "uri"); (HREF, u url)] (Some (u text)) [] None.
Definition hrefs (ref : node) : list str :=
  match ex_fix_ref ref with
  | Ok r => (fix go (e : node) : list str := match e with
               | El _ _ a _ kids _ => (match dict_get HREF a with Some h => [h] | None => [] end) ++ flat_map go kids
               | Mi _ => [] end) r
  | Err _ => [u "error"] end.
Example C104_test_links :
  map (fun r => (shown ext_link r, hrefs r))
    [ mixed (txt "some text") [id_el "doi" "https://doi.org/10.12345/abc/1" (txt "tail text")];
      mixed (txt "some text https://doi.org/") [id_el "doi" "10.12345/abc/1" (txt "tail text")];
      mixed (txt "some text https : // doi . org / ") [id_el "doi" "10.12345/abc/1" (txt "tail text")];
      mixed None [link_el "https://doi.org/10.12345/abc/1[10.12345/abc/1]" "https://doi.org/10.12345/abc/1[10.12345/abc/1]"];
      mixed None [link_el "https://doi.org/10.12345/abc/1[other]" "https://doi.org/10.12345/abc/1[other]"];
      mixed None [link_el "https://doi.org/10.12345/abc/1https://doi.org/10.12345/abc/2" "https://doi.org/10.12345/abc/1https://doi.org/10.12345/abc/2"];
      mixed None [link_el "http://doi.org/10.12345/abc/1http://doi.org/10.12345/abc/2" "http://doi.org/10.12345/abc/1http://doi.org/10.12345/abc/2"];
      mixed None [link_el "https://doi.org/10.12345/abc/1https://doi.org/10.12345/abc/2" "https://doi.org/10.12345/abc/1whttps://doi.org/10.12345/abc/2"] ]
  = [(us ["https://doi.org/10.12345/abc/1"], us ["https://doi.org/10.12345/abc/1"]);
     (us ["https://doi.org/10.12345/abc/1"], us ["https://doi.org/10.12345/abc/1"]);
     (us ["https : // doi . org / 10.12345/abc/1"], us ["https://doi.org/10.12345/abc/1"]);
     (us ["https://doi.org/10.12345/abc/1"], us ["https://doi.org/10.12345/abc/1"]);
     (us ["https://doi.org/10.12345/abc/1[other]"], us ["https://doi.org/10.12345/abc/1[other]"]);
     (us ["https://doi.org/10.12345/abc/1"; "https://doi.org/10.12345/abc/2"], us ["https://doi.org/10.12345/abc/1"; "https://doi.org/10.12345/abc/2"]);
     (us ["http://doi.org/10.12345/abc/1"; "http://doi.org/10.12345/abc/2"], us ["http://doi.org/10.12345/abc/1"; "http://doi.org/10.12345/abc/2"]);
     (us ["https://doi.org/10.12345/abc/1"; "https://doi.org/10.12345/abc/2"], us ["https://doi.org/10.12345/abc/1"; "https://doi.org/10.12345/abc/2"])].
Proof. vm_compute. reflexivity. Qed.
Example C104_test_pii :
  map (fun r => (shown doi r, shown (pub_id_of "pii") r, shown (pub_id_of "other") r))
    [ mixed (txt "doi: ") [id_el "doi" "S0123-1234(11)01234-5 [pii]; 10.12345/abc/1 [doi]" None];
      mixed None [other_el "other" "other text" (txt "doi: "); id_el "doi" "S0123-1234(11)01234-5 [pii]; 10.12345/abc/1 [doi]" None];
      mixed (txt "doi: ") [id_el "doi" "12/34/4567 [pii]; 10.12345/abc/1 [doi]" None];
      mixed None [id_el "pii" "12/34/4567" None];
      mixed (txt "doi:") [id_el "doi" "S0123-1234(11)01234-5 [pii]; 10.12345/abc/1 [doi]" None] ]
  = [(us ["10.12345/abc/1"], us ["S0123-1234(11)01234-5"], []);
     (us ["10.12345/abc/1"], us ["S0123-1234(11)01234-5"], []);
     (us ["10.12345/abc/1"], [], us ["12/34/4567"]);
     ([], [], []);
     (us ["10.12345/abc/1"], us ["S0123-1234(11)01234-5"], [])].
Proof. vm_compute. reflexivity. Qed.
Example C104_test_pmid :
  map (fun r => (shown (pub_id_of "pmid") r, shown (pub_id_of "pmcid") r, shown (pub_id_of "other") r))
    [ mixed None [id_el "pmid" "12345" (txt ", alternative PMID: 123")];
      mixed None [id_el "pmid" "PMID: 12345" None];
      mixed (txt "PMID: ") [id_el "pmid" "WOS: 000123456789001" None];
      mixed (txt "PMID:12345") [];
      mixed None [other_el "other" "other text" (txt "PMID:12345")];
      mixed (txt " PMID : 12345 ") [];
      mixed None [other_el "comment" "PMID:12345" None];
      mixed (txt "PMCID: ") [id_el "pmcid" "PMCPMC1234567" None];
      mixed (txt "PMCID: PMC1234567") [];
      mixed None [other_el "comment" "PMC1234567" None];
      mixed None [id_el "PMCID" "PMC1234567" None] ]
  = [(us ["12345"], [], []); (us ["12345"], [], []); ([], [], us ["000123456789001"]); (us ["12345"], [], []); (us ["12345"], [], []); (us ["12345"], [], []); (us ["12345"], [], []);
     ([], us ["PMC1234567"], []); ([], us ["PMC1234567"], []); ([], us ["PMC1234567"], []); ([], us ["PMC1234567"], [])].
Proof. vm_compute. reflexivity. Qed.
Definition title_el (x : ostr) (kids : list node) (t : ostr) : node := El None (u "article-title") [] x kids t.
Example C104_test_title :
  map (shown article_title)
    [ mixed (txt "title: ") [title_el (txt "This is the article title; PMC1234567") [] None];
      mixed (txt "title: ") [title_el (Some ([LSQUO] ++ u "This is the article title" ++ [RSQUO])%list) [] None];
      mixed (txt "title: ") [title_el (Some [LSQUO]) [other_el "italic" "This is the article title" (Some [RSQUO])] None];
      mixed (txt "title: ") [title_el (Some [LSQUO]) [other_el "italic" "This is the article title" None] (Some (u ", " ++ [RSQUO])%list)];
      mixed (txt "title: ") [title_el (Some [LDQUO]) [other_el "italic" "This is the article title" (txt ", ")] (Some [RDQUO])] ]
  = [us ["This is the article title"]; us ["This is the article title"]; us ["This is the article title"]; us ["This is the article title"]; us ["This is the article title"]].
Proof. vm_compute. reflexivity. Qed.

Lemma ascii_lower : forall ty, In ty KNOWN_PUB_ID_TYPES -> map lower_ascii ty = ty.
Proof. apply Forall_forall. repeat constructor. Qed.
(** An example for the theorems *)
Definition ex_mixed : node :=
  mixed (txt "A. Author. ") [title_el (txt "A title, ") [] (txt " 2010. "); id_el "DOI" "doi:10.12345/abc/1 [doi]" (txt "; "); id_el "pmid" "PMID: 77" (txt " PMC12 "); id_el "pii" "none" None].
Example C104_ex_inside : below nothing_inside ex_mixed.
Proof. cbn. repeat split; intros H; reflexivity || discriminate H. Qed.
Example C104_ex_fix : exists ref', ex_fix_ref ex_mixed = Ok ref' /\ below (fine_identifier ascii_word ascii_digit lower_ascii (map lower_ascii)) ref' /\
  elements pub_id ref' = us ["10.12345/abc/1"; "77"; "PMC12"].
Proof.
  eexists. split; [vm_compute; reflexivity|]. split; [|vm_compute; reflexivity].
  apply (C104_identifiers ascii_space ascii_word ascii_digit lower_ascii ascii_punct (map lower_ascii) ascii_classes_ok usual_ascii ascii_lower eq_refl ex_mixed); [exact C104_ex_inside|vm_compute; reflexivity].
Qed.
Example C104_ex_text : exists ref', ex_fix_ref (mixed (txt "A. PMID: 77 ") [title_el (txt "T, ") [] None; id_el "pmcid" "(PMC1)" None]) = Ok ref' /\
  elements pub_id ref' = us ["77"; "PMC1"] /\ content ref' = u "A. PMID: 77 T, (PMC1)".
Proof.
  eexists. split; [vm_compute; reflexivity|]. split; [vm_compute; reflexivity|].
  apply (C104_text ascii_space ascii_word ascii_digit lower_ascii ascii_punct (map lower_ascii) ascii_classes_ok usual_ascii ascii_lower (mixed (txt "A. PMID: 77 ") [title_el (txt "T, ") [] None; id_el "pmcid" "(PMC1)" None])); [|vm_compute; reflexivity].
  unfold simple_reference, simple_types, mixed, title_el, id_el, new_pub_id, TT, TN. cbn [below set_tail null].
  repeat match goal with |- _ /\ _ => split | |- True => exact I | |- _ <> _ => discriminate | |- _ = _ -> _ => intros HH; try discriminate HH end; try reflexivity.
  intros ty E. vm_compute in E. injection E as <-. split; [discriminate|]. intros f [H|[H|[H|[]]]]; try discriminate H. injection H as <-. vm_compute. discriminate.
Qed.
(** With elements inside identifiers this is not so. *)
Theorem C104_nested_refuted : exists ref ref' c s, ex_fix_ref ref = Ok ref' /\
  (exists m x kids t, ref' = El None (u "ref") [] None [El m (u "mixed-citation") [] x (c :: kids) t] None) /\
  pub_id_of "pmid" c = true /\ text_of c = Some s /\ ~ identifier ascii_word ascii_digit lower_ascii (u "pmid") s.
Proof.
  exists (mixed None [El None (u "pub-id") [(PUB_ID_TYPE, u "pmid")] (txt "12") [id_el "pmid" "x: 3" None] None]). do 3 eexists. split; [vm_compute; reflexivity|].
  split; [do 4 eexists; reflexivity|]. split; [reflexivity|]. split; [reflexivity|]. intros [_ H _ _]. destruct (H eq_refl) as [H1 _]. specialize (H1 120%N). assert (Q : ascii_digit 120 = true) by (apply H1; cbn; tauto). discriminate.
Qed.
(** A second run can change the reference again: a DOI is annotated within the address it belongs
    to by the last step and becomes a link only when the code is run again. *)
Theorem C104_again_refuted : exists ref ref1 ref2, below nothing_inside ref /\ ex_fix_ref ref = Ok ref1 /\ ex_fix_ref ref1 = Ok ref2 /\
  elements ext_link ref1 = [] /\ elements ext_link ref2 = us ["https://doi.org/10.12345/abc/1"].
Proof.
  exists (mixed (txt "see https://doi.org/10.12345/abc/1") []). do 2 eexists. split; [cbn; repeat split; discriminate|]. split; [vm_compute; reflexivity|]. split; [vm_compute; reflexivity|]. vm_compute. auto.
Qed.
(** A title that begins with a quote in double quotes loses the first of them. *)
Theorem C104_quote_refuted : exists title ref', ex_fix_ref (mixed (txt "title: ") [title_el (Some title) [] None]) = Ok ref' /\
  title = [LDQUO] ++ u "To be" ++ [RDQUO] ++ u " in context" /\ elements article_title ref' = [u "To be" ++ [RDQUO] ++ u " in context"].
Proof. do 2 eexists. split; [|split; [reflexivity|]]; vm_compute; reflexivity. Qed.
(** single quotes stay *)
Example C104_ex_single : shown article_title (mixed (txt "title: ") [title_el (Some ([LSQUO] ++ u "To be" ++ [RSQUO] ++ u " in context")) [] None]) = [[LSQUO] ++ u "To be" ++ [RSQUO] ++ u " in context"].
Proof. vm_compute. reflexivity. Qed.

Example C104_ex_duplicate : remove_duplicate_doi ascii_space ascii_word ascii_digit (remove_punct_or_whitespace ascii_space ascii_punct) (u "10.1234/a b 10.1234-/ab") = Ok (u "10.1234/a b 10.1234-/ab") /\
  remove_duplicate_doi ascii_space ascii_word ascii_digit (remove_punct_or_whitespace ascii_space ascii_punct) (u "10.1234/a. b c 10.1234/ab") = Ok (u "10.1234/a. b c") /\
  remove_duplicate_doi ascii_space ascii_word ascii_digit (remove_punct_or_whitespace ascii_space ascii_punct) (u "10.1234/ab 10.1234/abc") = Ok (u "10.1234/ab 10.1234/abc").
Proof. vm_compute. auto. Qed.

Example C104_ex_pii : let f := strip_pii_from_doi ascii_space (remove_punct ascii_punct) in
  f (u "10.1234/ab.c abc [pii]") = u "10.1234/ab.c" /\ f (u "10.1234/ab.c xyz [pii]") = u "10.1234/ab.c xyz" /\ f (u "10.1234/abc ab[pii]") = u "10.1234/abc ab" /\
  f (u "10.1234/abc [pii]") = u "10.1234/abc" /\ f (u "10.1234/abc abc") = u "10.1234/abc abc".
Proof. vm_compute. auto 10. Qed.
Print Assumptions C104_pii.
Print Assumptions C104_duplicate.
Print Assumptions C104_identifiers.
Print Assumptions C104_document.
Print Assumptions C104_text.
Print Assumptions C104_nested_refuted.
Print Assumptions C104_again_refuted.
Print Assumptions C104_quote_refuted.
