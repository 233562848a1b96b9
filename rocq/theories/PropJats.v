(** C47, C48, C68, C69: references of JATS documents keep their text *)
From Verif Require Import Base ModelDownload ModelJatsText PropJatsText ModelJats.
Open Scope nat_scope.

(* ---------------------------------------------------------------- *)
(** ** Trees *)
Section NodeInd.
Variable P : node -> Prop.
Hypothesis HE : forall m nm a x kids t, Forall P kids -> P (El m nm a x kids t).
Hypothesis HM : forall t, P (Mi t).
Fixpoint node_ind' (e : node) : P e :=
  match e with
  | El m nm a x kids t => HE m nm a x kids t ((fix go l : Forall P l := match l with [] => Forall_nil _ | c :: l' => Forall_cons _ (node_ind' c) (go l') end) kids)
  | Mi t => HM t
  end.
End NodeInd.
Definition nkids (e : node) : list node := match e with El _ _ _ _ kids _ => kids | Mi _ => [] end.
Definition mark_of (e : node) : option nat := match e with El m _ _ _ _ _ => m | Mi _ => None end.

(** every element below satisfies [R] *)
Fixpoint below (R : node -> Prop) (e : node) : Prop :=
  match e with
  | El _ _ _ _ kids _ => (fix go l := match l with [] => True | c :: l' => (R c /\ below R c) /\ go l' end) kids
  | Mi _ => True
  end.
Lemma below_eq R e : below R e <-> Forall (fun c => R c /\ below R c) (nkids e).
Proof.
  destruct e as [m nm a x kids t|t]; cbn [nkids below]; [|split; auto].
  induction kids as [|c kids IH]; [split; auto|]. rewrite Forall_cons_iff. tauto.
Qed.
Lemma below_imp (R R' : node -> Prop) e : (forall c, R c -> R' c) -> below R e -> below R' e.
Proof.
  intros H. induction e as [m nm a x kids t IH|t] using node_ind'; [|auto]. rewrite !below_eq. cbn [nkids]. intros Hb. rewrite Forall_forall in *.
  intros c Hc. destruct (Hb c Hc). split; auto.
Qed.
Lemma below_set_tail R t e : below R (set_tail t e) <-> below R e.
Proof. destruct e; cbn; tauto. Qed.
Lemma below_set_mark R t e : below R (set_mark t e) <-> below R e.
Proof. destruct e; cbn; tauto. Qed.
Lemma content_eq e : content e = match e with El _ _ _ x kids _ => otext x ++ flow kids | Mi _ => [] end.
Proof. destruct e; reflexivity. Qed.
Lemma flow_cons c l : flow (c :: l) = (content c ++ otext (ntail c)) ++ flow l.
Proof. reflexivity. Qed.
Lemma flow_app l l' : flow (l ++ l') = flow l ++ flow l'.
Proof. apply flat_map_app. Qed.
Lemma content_set_tail t e : content (set_tail t e) = content e.
Proof. destruct e; reflexivity. Qed.
Lemma ntail_set_tail t e : ntail (set_tail t e) = t.
Proof. destruct e; reflexivity. Qed.
Lemma set_tail_same e : set_tail (ntail e) e = e.
Proof. destruct e; reflexivity. Qed.
Lemma content_set_mark t e : content (set_mark t e) = content e.
Proof. destruct e; reflexivity. Qed.

(** *** Marks *)
Definition label_kids (p : node -> bool) : nat -> list node -> nat * list node :=
  fix go (n : nat) (l : list node) : nat * list node :=
    match l with
    | [] => (n, [])
    | c :: l' =>
        let (n2, c') := label p (if p c then S n else n) c in
        let (n3, l'') := go n2 l' in
        (n3, set_mark (if p c then Some n else None) c' :: l'')
    end.
Lemma label_eq p n m nm a x kids t : label p n (El m nm a x kids t) = let (n', kids') := label_kids p n kids in (n', El None nm a x kids' t).
Proof. reflexivity. Qed.
Lemma label_tail p n e : ntail (snd (label p n e)) = ntail e.
Proof. destruct e as [m nm a x kids t|t]; [|reflexivity]. rewrite label_eq. now destruct (label_kids p n kids). Qed.
Lemma label_content p e : forall n, content (snd (label p n e)) = content e.
Proof.
  induction e as [m nm a x kids t IH|t] using node_ind'; intros n; [|reflexivity]. rewrite label_eq.
  assert (K : forall n, flow (snd (label_kids p n kids)) = flow kids).
  { clear n. induction kids as [|c kids IHk]; intros n; [reflexivity|]. inversion IH as [|? ? H1 H2]; subst. cbn [label_kids].
    destruct (label p (if p c then S n else n) c) as [n2 c'] eqn:E. fold (label_kids p). specialize (IHk H2 n2). destruct (label_kids p n2 kids) as [n3 l'']. cbn [snd] in *. rewrite !flow_cons, IHk.
    specialize (H1 (if p c then S n else n)). pose proof (label_tail p (if p c then S n else n) c) as T. rewrite E in H1, T. cbn [snd] in H1, T.
    rewrite content_set_mark, H1. replace (ntail (set_mark _ c')) with (ntail c') by (destruct c'; reflexivity). now rewrite T. }
  specialize (K n). destruct (label_kids p n kids) as [n' kids']. cbn [snd] in *. rewrite !content_eq. now rewrite K.
Qed.
Lemma unmark_tail e : ntail (unmark e) = ntail e.
Proof. destruct e; reflexivity. Qed.
Lemma unmark_content e : content (unmark e) = content e.
Proof.
  induction e as [m nm a x kids t IH|t] using node_ind'; [|reflexivity]. cbn [unmark]. rewrite !content_eq. f_equal.
  induction kids as [|c kids IHk]; [reflexivity|]. inversion IH; subst. cbn [map]. rewrite !flow_cons, IHk by assumption. now rewrite unmark_tail, H1.
Qed.

(** *** A change at a mark *)
Definition at_kids (act : change) (k : nat) : ostr -> list node -> res (option (ostr * list node * bool)) :=
  fix at_kids (prev : ostr) (l : list node) : res (option (ostr * list node * bool)) :=
    match l with
    | [] => Ok None
    | c :: l' =>
        if has_mark k c then
          do r <- act prev c ;;
          let '(p', new, stop) := r in Ok (Some (p', new ++ l', stop))
        else
          do r <- at_node act k c ;;
          match r with
          | Some (c', stop) => Ok (Some (prev, c' :: l', stop))
          | None =>
              do r <- at_kids (ntail c) l' ;;
              match r with
              | Some (t', l'', stop) => Ok (Some (prev, set_tail t' c :: l'', stop))
              | None => Ok None
              end
          end
    end.
Lemma at_node_eq act k m nm a x kids t : at_node act k (El m nm a x kids t) =
  do r <- at_kids act k x kids ;; match r with Some (x', kids', stop) => Ok (Some (El m nm a x' kids' t, stop)) | None => Ok None end.
Proof. reflexivity. Qed.
(** a result for the children, case by case *)
Lemma at_kids_inv act k prev c l p' l' b : at_kids act k prev (c :: l) = Ok (Some (p', l', b)) ->
  (has_mark k c = true /\ exists new, act prev c = Ok (p', new, b) /\ l' = new ++ l) \/
  (has_mark k c = false /\ exists c', at_node act k c = Ok (Some (c', b)) /\ p' = prev /\ l' = c' :: l) \/
  (has_mark k c = false /\ at_node act k c = Ok None /\ exists t' l'', at_kids act k (ntail c) l = Ok (Some (t', l'', b)) /\ p' = prev /\ l' = set_tail t' c :: l'').
Proof.
  cbn [at_kids]. destruct (has_mark k c) eqn:E.
  - destruct (act prev c) as [[[p1 new] b1]|] eqn:Ea; [|discriminate]. cbn. intros [= <- <- <-]. left. split; [reflexivity|]. exists new. auto.
  - destruct (at_node act k c) as [[[c' b1]|]|] eqn:Ec; [| |discriminate]; cbn [bind].
    + intros [= <- <- <-]. right. left. split; [reflexivity|]. exists c'. auto.
    + fold (at_kids act k). destruct (at_kids act k (ntail c) l) as [[[[t' l''] b1]|]|] eqn:El; cbn; [|discriminate|discriminate]. intros [= <- <- <-]. right. right.
      split; [reflexivity|]. split; [reflexivity|]. exists t', l''. auto.
Qed.
Lemma at_node_inv act k e e' b : at_node act k e = Ok (Some (e', b)) ->
  exists m nm a x kids t x' kids', e = El m nm a x kids t /\ e' = El m nm a x' kids' t /\ at_kids act k x kids = Ok (Some (x', kids', b)).
Proof.
  destruct e as [m nm a x kids t|t]; [|discriminate]. rewrite at_node_eq. destruct (at_kids act k x kids) as [[[[x' kids'] b1]|]|] eqn:E; cbn [bind]; [|discriminate|discriminate].
  intros [= <- <-]. exists m, nm, a, x, kids, t, x', kids'. auto.
Qed.

Section Steps.
Variable act : change.
Variable k : nat.
(** the change keeps the text at this place *)
Definition keeps (prev : ostr) (c : node) : Prop :=
  forall p' l b, act prev c = Ok (p', l, b) -> otext p' ++ flow l = otext prev ++ content c ++ otext (ntail c).
(** what holds of the elements before and after *)
Variables R R' : node -> Prop.
Variable moves : bool.
Hypothesis Hmove : moves = false -> forall prev c p' l b, has_mark k c = true -> R c -> act prev c = Ok (p', l, b) -> p' = prev.
Hypothesis Htail : forall c t, R c -> (moves = true \/ t = ntail c) -> R' (set_tail t c).
(** the parent of something changed *)
Hypothesis Hparent : forall m nm a x kids t x' kids' b, R (El m nm a x kids t) -> below R (El m nm a x kids t) ->
  at_kids act k x kids = Ok (Some (x', kids', b)) -> R' (El m nm a x' kids' t).
Hypothesis Hact : forall prev c p' l b, has_mark k c = true -> R c -> below R c -> act prev c = Ok (p', l, b) -> Forall (fun d => R' d /\ below R' d) l.
Lemma step_same c : R c -> R' c.
Proof. intros H. rewrite <- (set_tail_same c). apply Htail; auto. Qed.
Lemma kids_moved x kids x' kids' b : moves = false -> Forall R kids -> at_kids act k x kids = Ok (Some (x', kids', b)) -> x' = x.
Proof.
  intros Hm H. destruct kids as [|c kids]; [discriminate|]. inversion H; subst. intros E. apply at_kids_inv in E as [(E & new & E1 & _)|[(_ & c' & _ & -> & _)|(_ & _ & t' & l'' & _ & -> & _)]]; auto.
  eapply Hmove; eauto.
Qed.
Lemma step_below e : forall e' b, at_node act k e = Ok (Some (e', b)) -> below R e -> below R' e'.
Proof.
  induction e as [m nm a x kids t IH|t] using node_ind'; intros e' b E; [|discriminate]. apply at_node_inv in E as (m0 & nm0 & a0 & x0 & kids0 & t0 & x' & kids' & E0 & -> & E). injection E0 as <- <- <- <- <- <-.
  rewrite !below_eq. cbn [nkids]. clear m nm a t. revert x x' kids' b E. induction kids as [|c kids IHk]; intros x x' kids' b E Hb; [discriminate|].
  inversion IH as [|? ? Hc Hk]; subst. inversion Hb as [|? ? [Hb1 Hb2] Hb3]; subst.
  assert (Hrest : Forall (fun d => R' d /\ below R' d) kids).
  { eapply Forall_impl; [|exact Hb3]. intros d [H1 H2]. split; [now apply step_same|]. eapply below_imp; [|exact H2]. apply step_same. }
  apply at_kids_inv in E as [(E & new & E1 & ->)|[(_ & c' & E1 & _ & ->)|(_ & _ & t' & l'' & E1 & _ & ->)]].
  - apply Forall_app. split; [|exact Hrest]. eapply Hact; eauto.
  - constructor; [|exact Hrest]. split; [|eapply Hc; eauto]. destruct (at_node_inv _ _ _ _ _ E1) as (m & nm & a & y & ks & t & y' & ks' & -> & -> & E2). eapply Hparent; eauto.
  - constructor; [|eapply IHk; eauto]. rewrite below_set_tail. split; [|eapply below_imp; [|exact Hb2]; apply step_same].
    apply Htail; [exact Hb1|]. assert (Em : moves = true \/ moves = false) by (destruct moves; auto). destruct Em as [Em|Em]; [now left|right]. apply (kids_moved (ntail c) kids t' l'' b Em); [|exact E1]. eapply Forall_impl; [|exact Hb3]. intros d [Hd _]. exact Hd.
Qed.
(** the text of the tree *)
Hypothesis Hkeeps : forall prev c, has_mark k c = true -> R c -> below R c -> keeps prev c.
Lemma step_content e : forall e' b, at_node act k e = Ok (Some (e', b)) -> below R e -> content e' = content e /\ ntail e' = ntail e.
Proof.
  induction e as [m nm a x kids t IH|t] using node_ind'; intros e' b E; [|discriminate]. apply at_node_inv in E as (m0 & nm0 & a0 & x0 & kids0 & t0 & x' & kids' & E0 & -> & E). injection E0 as <- <- <- <- <- <-.
  rewrite below_eq. cbn [nkids]. intros Hb. split; [|reflexivity]. rewrite !content_eq. clear m nm a t. revert x x' kids' b E. induction kids as [|c kids IHk]; intros x x' kids' b E; [discriminate|].
  inversion IH as [|? ? Hc Hk]; subst. inversion Hb as [|? ? [Hb1 Hb2] Hb3]; subst.
  apply at_kids_inv in E as [(E & new & E1 & ->)|[(_ & c' & E1 & -> & ->)|(_ & _ & t' & l'' & E1 & -> & ->)]].
  - rewrite flow_app, flow_cons, !app_assoc. f_equal. rewrite <- (app_assoc (otext x)). eapply Hkeeps; eauto.
  - destruct (Hc _ _ E1 Hb2) as [Q1 Q2]. now rewrite !flow_cons, Q1, Q2.
  - rewrite !flow_cons, content_set_tail, ntail_set_tail, <- !app_assoc, (IHk Hk Hb3 _ _ _ _ E1). reflexivity.
Qed.
End Steps.

(** the loop: [R k] holds before the step with mark [k] *)
Lemma loop_content act moves (R : nat -> node -> Prop) :
  (moves = false -> forall k prev c p' l b, has_mark k c = true -> R k c -> act prev c = Ok (p', l, b) -> p' = prev) ->
  (forall k c t, R k c -> (moves = true \/ t = ntail c) -> R (S k) (set_tail t c)) ->
  (forall k m nm a x kids t x' kids' b, R k (El m nm a x kids t) -> below (R k) (El m nm a x kids t) ->
     at_kids act k x kids = Ok (Some (x', kids', b)) -> R (S k) (El m nm a x' kids' t)) ->
  (forall k prev c p' l b, has_mark k c = true -> R k c -> below (R k) c -> act prev c = Ok (p', l, b) -> Forall (fun d => R (S k) d /\ below (R (S k)) d) l) ->
  (forall k prev c, has_mark k c = true -> R k c -> below (R k) c -> keeps act prev c) ->
  forall n k e e', loop act k n e = Ok e' -> below (R k) e -> content e' = content e /\ ntail e' = ntail e /\ exists k', below (R k') e'.
Proof.
  intros H1 H2 H3 H4 H5 n. induction n as [|n IH]; intros k e e'; cbn [loop]; [intros [= <-]; eauto|]. intros E Hb.
  assert (Hs : below (R (S k)) e) by (eapply below_imp; [|exact Hb]; intros c Hc; rewrite <- (set_tail_same c); apply H2; auto).
  destruct (at_node act k e) as [[[e1 stop]|]|] eqn:Ea; cbn [bind] in E; [| |discriminate].
  - assert (Hb1 : below (R (S k)) e1) by (eapply (step_below act k (R k) (R (S k)) moves); eauto).
    assert (Hc1 : content e1 = content e /\ ntail e1 = ntail e) by (eapply (step_content act k (R k)); eauto).
    destruct Hc1 as [C1 C2]. destruct stop; [injection E as <-; eauto|]. destruct (IH _ _ _ E Hb1) as (Q1 & Q2 & Q3). split; [congruence|]. split; [congruence|exact Q3].
  - exact (IH _ _ _ E Hs).
Qed.

(** *** All elements of a list *)
(** [p] looks at the name and the attributes only *)
Definition by_name (p : node -> bool) : Prop :=
  (forall m nm a x kids t, p (El m nm a x kids t) = p (El None nm a None [] None)) /\ forall t, p (Mi t) = false.
Definition unmarked : node -> Prop := below (fun c => mark_of c = None).
Lemma label_below_unmarked p e : forall n, any p e = false -> unmarked (snd (label p n e)).
Proof.
  induction e as [m nm a x kids t IH|t] using node_ind'; intros n H; [|exact I]. rewrite label_eq. cbn [any] in H. unfold unmarked.
  assert (K : forall n, Forall (fun c => mark_of c = None /\ unmarked c) (snd (label_kids p n kids))).
  { clear n. induction kids as [|c kids IHk]; intros n; [constructor|]. inversion IH as [|? ? H1 H2]; subst. cbn [existsb] in H. apply orb_false_iff in H as [H H3]. apply orb_false_iff in H as [Hp Ha].
    cbn [label_kids]. rewrite Hp. specialize (H1 n Ha). destruct (label p n c) as [n2 c'] eqn:E. fold (label_kids p). specialize (IHk H2 H3 n2). destruct (label_kids p n2 kids) as [n3 l'']. cbn [snd] in *.
    constructor; [|exact IHk]. split; [destruct c'; reflexivity|]. apply below_set_mark. exact H1. }
  specialize (K n). destruct (label_kids p n kids) as [n' kids']. cbn [snd] in *. apply below_eq. exact K.
Qed.
Lemma unmarked_kids act k : forall e, unmarked e -> at_node act k e = Ok None.
Proof.
  intros e. induction e as [m nm a x kids t IH|t] using node_ind'; intros H; [|reflexivity]. rewrite at_node_eq. unfold unmarked in H. rewrite below_eq in H. cbn [nkids] in H.
  enough (K : forall x, at_kids act k x kids = Ok None) by now rewrite K. clear m nm a x t. induction kids as [|c kids IHk]; intros x; [reflexivity|].
  inversion IH as [|? ? I1 I2]; subst. inversion H as [|? ? [H1 H2] H3]; subst. cbn [at_kids].
  assert (has_mark k c = false) as -> by (destruct c as [[j|] ? ? ? ? ?|]; [discriminate|reflexivity|reflexivity]). rewrite (I1 H2). cbn [bind]. fold (at_kids act k). now rewrite (IHk I2 H3).
Qed.
Lemma unmarked_at_kids act k m nm a x kids t : unmarked (El m nm a x kids t) -> at_kids act k x kids = Ok None.
Proof.
  intros H. pose proof (unmarked_kids act k _ H) as E. rewrite at_node_eq in E. destruct (at_kids act k x kids) as [[[[? ?] ?]|]|]; cbn in E; congruence.
Qed.
(** what holds of the elements holds of the elements with marks *)
Lemma label_below p (S0 T : node -> Prop) e :
  (forall c n m, S0 c -> (p c = true -> m <> None) -> (p c = false -> m = None) -> T (set_mark m (snd (label p n c)))) -> forall n, below S0 e -> below T (snd (label p n e)).
Proof.
  intros HT. induction e as [m nm a x kids t IH|t] using node_ind'; intros n H; [|exact I]. rewrite label_eq. rewrite below_eq in H. cbn [nkids] in H.
  assert (K : forall n, Forall (fun c => T c /\ below T c) (snd (label_kids p n kids))).
  { clear n. induction kids as [|c kids IHk]; intros n; [constructor|]. inversion IH as [|? ? H1 H2]; subst. inversion H as [|? ? [H3 H4] H5]; subst.
    cbn [label_kids]. set (n1 := if p c then S n else n). specialize (H1 n1 H4). pose proof (HT c n1 (if p c then Some n else None) H3) as Q. destruct (label p n1 c) as [n2 c'] eqn:E. fold (label_kids p). specialize (IHk H2 H5 n2). destruct (label_kids p n2 kids) as [n3 l'']. cbn [snd] in *.
    constructor; [|exact IHk]. split; [apply Q; destruct (p c); congruence|]. apply below_set_mark. exact H1. }
  specialize (K n). destruct (label_kids p n kids) as [n' kids']. cbn [snd] in *. apply below_eq. exact K.
Qed.

Section Each.
Variable p : node -> bool.
Variable act : change.
Hypothesis Hp : by_name p.
(** [Q attrib text (text of the children) tail] makes the change safe *)
Variable Q : list (str * str) -> ostr -> str -> ostr -> Prop.
Variable moves : bool.
Hypothesis Hmove : moves = false -> forall prev c p' l b, act prev c = Ok (p', l, b) -> p' = prev.
Hypothesis HQ : moves = true -> forall a x f t t', Q a x f t -> Q a x f t'.
(** the change keeps the children or has none *)
Hypothesis Hshape : forall prev c p' l b, act prev c = Ok (p', l, b) ->
  Forall (fun d => (mark_of d = None /\ nkids d = []) \/ (mark_of d = mark_of c /\ nkids d = nkids c)) l.
Hypothesis Hkeeps : forall prev m nm a x kids t, Q a x (flow kids) t -> keeps act prev (El m nm a x kids t).
Definition QR (k : nat) (c : node) : Prop :=
  match c with El (Some j) nm a x kids t => unmarked c /\ (k <= j -> Q a x (flow kids) t) | _ => True end.
Lemma QR_free k c : mark_of c = None -> QR k c.
Proof. destruct c as [[j|] ? ? ? ? ?|]; [discriminate|reflexivity|reflexivity]. Qed.
(** no element of the list in another one, and each is safe *)
Definition safe_for (c : node) : Prop :=
  p c = true -> any p c = false /\ match c with El _ nm a x kids t => Q a x (flow kids) t | Mi _ => True end.
Theorem each_keeps e e' : below safe_for e -> each p act e = Ok e' -> content e' = content e /\ ntail e' = ntail e.
Proof.
  intros Hs. unfold each. pose proof (label_content p e 0) as Hc. pose proof (label_tail p 0 e) as Ht.
  assert (Hb : below (QR 0) (snd (label p 0 e))).
  { apply (label_below p safe_for); [|exact Hs]. intros c n m H H1 H2. destruct (p c) eqn:Epc; [|rewrite (H2 eq_refl); apply QR_free; destruct (snd (label p n c)); reflexivity].
    destruct (H Epc) as [Ha Hq]. pose proof (label_below_unmarked p c n Ha) as U. pose proof (label_content p c n) as Cc.
    destruct c as [m0 nm a x kids t|t]; [|exact I]. rewrite label_eq in *. destruct (label_kids p n kids) as [n' kids']. cbn [snd set_mark] in *. destruct m as [j|]; [|exact I].
    split; [exact U|]. intros _. rewrite !content_eq in Cc. apply app_inv_head in Cc. now rewrite Cc. }
  destruct (label p 0 e) as [n e1]. cbn [snd] in *. destruct (loop act 0 n e1) as [e2|] eqn:E; [|discriminate]. cbn. intros [= <-].
  rewrite unmark_content, unmark_tail, <- Hc, <- Ht.
  enough (Z : content e2 = content e1 /\ ntail e2 = ntail e1 /\ exists k', below (QR k') e2) by tauto.
  apply (loop_content act moves QR) with (n := n) (k := 0); [| | | | |exact E|exact Hb].
  - intros Hm k prev c p' l b _ _. now apply Hmove.
  - intros k c t Hr Hm. destruct c as [[j|] nm a x kids t0|]; try exact I. cbn in *. destruct Hr as [Hu Hr]. split; [exact Hu|]. intros Hk. assert (Hq : Q a x (flow kids) t0) by (apply Hr; lia).
    destruct Hm as [Hm|Hm]; [eapply HQ; eauto|]. now rewrite Hm.
  - intros k m nm a x kids t x' kids' b Hr _ E1. destruct m as [j|]; [|exact I]. destruct Hr as [Hu _]. rewrite (unmarked_at_kids _ _ _ _ _ _ _ _ Hu) in E1. discriminate.
  - intros k prev c p' l b Hm Hr _ E1. specialize (Hshape _ _ _ _ _ E1). eapply Forall_impl; [|exact Hshape]. cbv beta. intros d [[D1 D2]|[D1 D2]].
    + split; [now apply QR_free|]. apply below_eq. rewrite D2. constructor.
    + destruct c as [[j|] nm a x kids t|]; [|discriminate|discriminate]. cbn [has_mark] in Hm. cbn [QR] in Hr. apply Nat.eqb_eq in Hm. subst j. destruct Hr as [Hu _].
      assert (Hu' : unmarked d) by (unfold unmarked in *; rewrite below_eq, D2; cbn [nkids]; now rewrite below_eq in Hu).
      destruct d as [m' nm' a' x' kids' t'|]; [|discriminate]. cbn in D1, D2. subst m' kids'. split; [split; [exact Hu'|lia]|].
      eapply below_imp; [|exact Hu']. intros c. apply QR_free.
  - intros k prev c Hm Hr _. destruct c as [[j|] nm a x kids t|]; [|discriminate|discriminate]. cbn in Hm, Hr. apply Nat.eqb_eq in Hm. apply Hkeeps. apply Hr. lia.
Qed.
End Each.

(** A change that always keeps the text *)
Lemma each_keeps_always p act e e' : (forall prev c, keeps act prev c) -> each p act e = Ok e' -> content e' = content e /\ ntail e' = ntail e.
Proof.
  intros H. unfold each. pose proof (label_content p e 0) as Hc. pose proof (label_tail p 0 e) as Ht. destruct (label p 0 e) as [n e1]. cbn [snd] in *.
  destruct (loop act 0 n e1) as [e2|] eqn:E; [|discriminate]. cbn. intros [= <-]. rewrite unmark_content, unmark_tail, <- Hc, <- Ht.
  enough (Z : content e2 = content e1 /\ ntail e2 = ntail e1 /\ exists k', below ((fun (_ : nat) (_ : node) => True) k') e2) by tauto.
  assert (T : forall e : node, below (fun _ => True) e).
  { intros e0. induction e0 as [m nm a x kids t IH|t] using node_ind'; [|exact I]. apply below_eq. cbn [nkids]. eapply Forall_impl; [|exact IH]. auto. }
  apply (loop_content act true (fun _ _ => True)) with (n := n) (k := 0); auto; [discriminate|].
  intros k prev c p' l b _ _ _ _. apply Forall_forall. auto.
Qed.

(** Something that stays true of all elements *)
Section Inv.
Variable p : node -> bool.
Variable act : change.
Hypothesis Hp : by_name p.
(** [T name attrib text (no children) tail] *)
Variable T : str -> list (str * str) -> ostr -> bool -> ostr -> Prop.
Definition null {A} (l : list A) : bool := match l with [] => true | _ => false end.
Definition TN (c : node) : Prop := match c with El _ nm a x kids t => T nm a x (null kids) t | Mi _ => True end.
Definition TP (c : node) : Prop := TN c /\ (mark_of c <> None -> p c = true).
Hypothesis HTt : forall nm a x b t t', T nm a x b t -> T nm a x b t'.
Hypothesis HTx : forall nm a x t x' b, T nm a x false t -> T nm a x' b t.
Hypothesis HTact : forall prev c p' l b, p c = true -> TP c -> below TP c -> act prev c = Ok (p', l, b) -> Forall (fun d => TP d /\ below TP d) l.
Lemma null_label n kids : null (snd (label_kids p n kids)) = null kids.
Proof. destruct kids as [|c kids]; [reflexivity|]. cbn [label_kids]. destruct (label p _ c) as [n2 c']. fold (label_kids p). destruct (label_kids p n2 kids). reflexivity. Qed.
Lemma TN_unmark c : TN c -> TN (unmark c).
Proof. destruct c as [m nm a x kids t|]; [|auto]. cbn. now destruct kids. Qed.
Lemma below_unmark e : below TN e -> below TN (unmark e).
Proof.
  induction e as [m nm a x kids t IH|t] using node_ind'; [|auto]. rewrite !below_eq. cbn [unmark nkids]. intros H. rewrite Forall_forall in *. intros d Hd. apply in_map_iff in Hd as (c & <- & Hc).
  destruct (H c Hc) as [H1 H2]. split; [now apply TN_unmark|auto].
Qed.
Lemma loop_below : forall n k e e', loop act k n e = Ok e' -> below TP e -> below TP e'.
Proof.
  induction n as [|n IH]; intros k e e'; cbn [loop]; [intros [= <-]; auto|]. intros E Hb.
  destruct (at_node act k e) as [[[e1 stop]|]|] eqn:Ea; cbn [bind] in E; [| |discriminate]; [|exact (IH _ _ _ E Hb)].
  assert (Hb1 : below TP e1).
  { apply (step_below act k TP TP true) with (e := e) (b := stop); auto; [discriminate| | |].
    - intros c t [H1 H2] _. destruct c as [m nm a x kids t0|]; [|split; [exact I|cbn; congruence]]. split; [cbn in *; eapply HTt; exact H1|].
      intros Hm. destruct Hp as [Hp1 _]. cbn [set_tail]. rewrite Hp1, <- (Hp1 m nm a x kids t0). now apply H2.
    - intros m nm a x kids t x' kids' b [H1 H2] _ E1. split; [|destruct Hp as [Hp1 _]; intros Q; rewrite Hp1; rewrite <- (Hp1 m nm a x kids t); now apply H2].
      cbn in *. destruct kids as [|c kids]; [discriminate|]. eapply HTx. exact H1.
    - intros prev c p' l b Hm Hc Hbc E1. apply (HTact prev c p' l b); auto. destruct Hc as [_ Hc]. apply Hc. destruct c as [[j|] ? ? ? ? ?|]; [discriminate|discriminate|discriminate]. }
  destruct stop; [now injection E as <-|]. exact (IH _ _ _ E Hb1).
Qed.
Theorem each_inv e e' : below TN e -> each p act e = Ok e' -> below TN e'.
Proof.
  unfold each. intros Hb. assert (H : below TP (snd (label p 0 e))).
  { apply (label_below p TN); [|exact Hb]. intros c n m H H1 H2. destruct c as [m0 nm a x kids t|t]; [|split; [exact I|cbn; congruence]].
    pose proof (null_label n kids) as K. rewrite label_eq. destruct (label_kids p n kids) as [n' kids']. cbn [snd set_mark] in *. split; [cbn; now rewrite K|]. cbn [mark_of]. intros Hm.
    destruct Hp as [Hp1 _]. rewrite Hp1, <- (Hp1 m0 nm a x kids t). destruct (p (El m0 nm a x kids t)); [reflexivity|]. now rewrite (H2 eq_refl) in Hm. }
  destruct (label p 0 e) as [n e1]. cbn [snd] in H. destruct (loop act 0 n e1) as [e2|] eqn:E; [|discriminate]. cbn. intros [= <-]. apply below_unmark.
  eapply below_imp; [|eapply loop_below; eauto]. intros c [Hc _]. exact Hc.
Qed.
End Inv.

(* ---------------------------------------------------------------- *)
(** ** The changes *)
Lemma slice3 (t : str) i j : i <= j -> firstn i t ++ slice t i j ++ skipn j t = t.
Proof.
  intros H. unfold slice. assert (E : skipn j t = skipn (j - i) (skipn i t)).
  { replace j with (i + (j - i)) at 1 by lia. generalize (j - i). clear. intros n. revert i. induction t as [|x t IH]; intros i; [now rewrite !skipn_nil|]. destruct i; [reflexivity|]. cbn. apply IH. }
  rewrite E, firstn_skipn. apply firstn_skipn.
Qed.
Definition in_range (find : finder) : Prop := forall t i j, find t = Ok (Some (i, j)) -> i <= j.

Lemma change_keeps find prev m nm a x kids t :
  match x with None => True | Some text => exists i j, find text = Ok (Some (i, j)) /\ i <= j /\ (flow kids = [] \/ skipn j text = []) end ->
  keeps (change_annotation find) prev (El m nm a x kids t).
Proof.
  intros H p' l b. cbn [change_annotation]. destruct x as [text|]; [|intros [= <- <- <-]; cbn; now rewrite app_nil_r].
  destruct H as (i & j & -> & Hij & Hf). cbn [bind]. intros [= <- <- <-]. cbn [add_text_to_previous otext]. rewrite flow_cons. cbn [content otext ntail]. fold (flow kids). cbn [flow flat_map]. rewrite app_nil_r, <- !app_assoc. f_equal.
  rewrite <- (slice3 text i j Hij) at 4. rewrite <- !app_assoc. do 2 f_equal. destruct Hf as [->| ->]; reflexivity.
Qed.
Lemma change_shape find prev c p' l b : change_annotation find prev c = Ok (p', l, b) ->
  Forall (fun d => (mark_of d = None /\ nkids d = []) \/ (mark_of d = mark_of c /\ nkids d = nkids c)) l.
Proof.
  destruct c as [m nm a x kids t|t]; cbn [change_annotation].
  - destruct x as [text|]; [|intros [= <- <- <-]; auto]. destruct (find text) as [[[i j]|]|]; cbn; [|intros [= <- <- <-]; auto|discriminate]. intros [= <- <- <-]. auto.
  - intros [= <- <- <-]. auto.
Qed.
Section Actions.
Variables sp wd dg : N -> bool.
Variable token_at : str -> bool.
Variables nopunct nopunct_space : str -> str.
Variable find_doi_url_prefix : str -> option (nat * nat).
Variable repeated_doi : str -> option nat.
Variable lower : str -> str.
Lemma link_keeps prev m nm a x kids t : flow kids = [] -> keeps (doi_to_link sp find_doi_url_prefix) prev (El m nm a x kids t).
Proof.
  intros Hf p' l b. unfold doi_to_link. destruct prev as [before|]; [|discriminate]. destruct (find_doi_url_prefix before) as [[i j]|].
  - destruct x as [doi|]; [|discriminate]. intros [= <- <- <-]. cbn [otext flow flat_map]. unfold new_ext_link. rewrite (content_eq (El m nm a _ _ _)). cbn [content otext ntail flow flat_map]. rewrite Hf, !app_nil_r, <- !app_assoc.
    rewrite <- (firstn_skipn i before) at 3. rewrite <- !app_assoc. do 3 f_equal. destruct t as [[|]|]; reflexivity.
  - intros [= <- <- <-]. cbn [flow flat_map]. now rewrite app_nil_r.
Qed.
Lemma link_shape prev c p' l b : doi_to_link sp find_doi_url_prefix prev c = Ok (p', l, b) ->
  Forall (fun d => (mark_of d = None /\ nkids d = []) \/ (mark_of d = mark_of c /\ nkids d = nkids c)) l.
Proof.
  unfold doi_to_link. destruct prev as [before|]; [|discriminate]. destruct (find_doi_url_prefix before) as [[i j]|]; [|intros [= <- <- <-]; auto].
  destruct c as [m nm a [doi|] kids t|]; [|discriminate|discriminate]. intros [= <- <- <-]. constructor; [left; auto|constructor].
Qed.
Lemma split_keeps prev m nm a x kids t : (forall text, x = Some text -> length (split_url text) <= 1 \/ flow kids ++ otext t = []) ->
  keeps (split_link sp) prev (El m nm a x kids t).
Proof.
  intros H p' l b. assert (Same : Ok (prev, [El m nm a x kids t], false) = Ok (p', l, b) -> otext p' ++ flow l = otext prev ++ content (El m nm a x kids t) ++ otext (ntail (El m nm a x kids t))).
  { intros [= <- <- <-]. cbn [flow flat_map]. now rewrite app_nil_r. }
  cbn [split_link]. destruct x as [[|y text]|]; [exact Same| |exact Same]. destruct (dict_get HREF a) as [[|z href]|]; [exact Same| |exact Same].
  destruct (negb _ && negb _); [exact Same|]. specialize (H (y :: text) eq_refl). pose proof (split_urls_concat (y :: text) []) as C. cbn [app] in C. fold (split_url (y :: text)) in C.
  destruct (split_url (y :: text)) as [|h [|h2 others]]; [exact Same|exact Same|]. destruct H as [H|H]; [cbn in H; lia|]. intros [= <- <- <-]. f_equal. rewrite flow_cons, !content_eq. cbn [ntail otext]. rewrite <- C.
  apply app_eq_nil in H as [-> ->]. rewrite !app_nil_r. cbn [concat]. f_equal.
  assert (F : forall q, flow (map (fun o => new_ext_link sp o None) q) = concat q).
  { induction q as [|o q IH]; [reflexivity|]. cbn [map concat]. rewrite flow_cons, IH. unfold new_ext_link. cbn. now rewrite !app_nil_r. }
  exact (F (h2 :: others)).
Qed.
Lemma split_prev prev c p' l b : split_link sp prev c = Ok (p', l, b) -> p' = prev.
Proof.
  destruct c as [m nm a [[|y text]|] kids t|]; cbn [split_link]; try (intros [= <- <- <-]; reflexivity). destruct (dict_get HREF a) as [[|z href]|]; try (intros [= <- <- <-]; reflexivity).
  destruct (negb _ && negb _); try (intros [= <- <- <-]; reflexivity). destruct (split_url (y :: text)) as [|h [|h2 others]]; intros [= <- <- <-]; reflexivity.
Qed.
Lemma split_shape prev c p' l b : split_link sp prev c = Ok (p', l, b) ->
  Forall (fun d => (mark_of d = None /\ nkids d = []) \/ (mark_of d = mark_of c /\ nkids d = nkids c)) l.
Proof.
  destruct c as [m nm a [[|y text]|] kids t|]; cbn [split_link]; try (intros [= <- <- <-]; auto; fail). destruct (dict_get HREF a) as [[|z href]|]; try (intros [= <- <- <-]; auto; fail).
  destruct (negb _ && negb _); try (intros [= <- <- <-]; auto; fail). destruct (split_url (y :: text)) as [|h [|h2 others]]; intros [= <- <- <-]; auto. constructor; [now right|].
  apply Forall_forall. intros d Hd. apply (in_map_iff (fun o => new_ext_link sp o None) (h2 :: others)) in Hd as (o & <- & _). now left.
Qed.
Lemma href_keeps prev c : keeps (cut_href repeated_doi) prev c.
Proof.
  intros p' l b. assert (Same : Ok (prev, [c], false) = Ok (p', l, b) -> otext p' ++ flow l = otext prev ++ content c ++ otext (ntail c)) by (intros [= <- <- <-]; cbn [flow flat_map]; now rewrite app_nil_r).
  destruct c as [m nm a x kids t|]; cbn [cut_href]; [|exact Same]. destruct (dict_get HREF a) as [[|z href]|]; [exact Same| |exact Same].
  destruct (find_ext_link repeated_doi (z :: href)) as [i j]. intros [= <- <- <-]. cbn [flow flat_map]. now rewrite app_nil_r.
Qed.
Lemma lower_keeps prev c : keeps (lower_type lower) prev c.
Proof.
  intros p' l b. assert (Same : Ok (prev, [c], false) = Ok (p', l, b) -> otext p' ++ flow l = otext prev ++ content c ++ otext (ntail c)) by (intros [= <- <- <-]; cbn [flow flat_map]; now rewrite app_nil_r).
  destruct c as [m nm a x kids t|]; cbn [lower_type]; [|exact Same]. destruct (dict_get PUB_ID_TYPE a) as [[|z ty]|]; [exact Same| |exact Same].
  destruct (mem _ _); [|exact Same]. intros [= <- <- <-]. cbn [flow flat_map]. now rewrite app_nil_r.
Qed.
(** *** Titles *)
Lemma cut_last_flow f l : (forall s, fst (f s) ++ snd (f s) = s) -> forall l' s, cut_last f l = (l', s) -> flow l' ++ s = flow l.
Proof.
  intros Hf. induction l as [|c l IH]; intros l' s; cbn [cut_last]; [intros [= <- <-]; reflexivity|]. destruct l as [|c2 l].
  - destruct (ntail c) as [[|z t]|] eqn:Et; intros [= <- <-]; [apply app_nil_r| |apply app_nil_r].
    cbn [flow flat_map]. rewrite content_set_tail, ntail_set_tail, Et, !app_nil_r, <- app_assoc. cbn [otext]. now rewrite Hf.
  - destruct (cut_last f (c2 :: l)) as [l'' s''] eqn:E. intros [= <- <-]. rewrite !(flow_cons c), <- app_assoc. now rewrite (IH _ _ eq_refl).
Qed.
Lemma first_cut prev (x : ostr) : let (prev', x') := match x with Some (c0 :: x') => (add_text_to_previous prev [c0], Some x') | _ => (prev, x) end in
  otext prev' ++ otext x' = otext prev ++ otext x.
Proof. destruct x as [[|c0 x']|]; cbn; [reflexivity| |reflexivity]. now rewrite <- app_assoc. Qed.
Lemma quotes_keeps prev e : let (prev', e') := remove_quotes prev e in
  otext prev' ++ content e' ++ otext (ntail e') = otext prev ++ content e ++ otext (ntail e).
Proof.
  destruct e as [m nm a x kids t|]; [|reflexivity]. cbn [remove_quotes]. fold (flow kids). change (otext x ++ flow kids) with (content (El m nm a x kids t)).
  destruct (content (El m nm a x kids t)) as [|c [|c2 rest]] eqn:Ec; [rewrite Ec; reflexivity|rewrite Ec; reflexivity|].
  pose proof (first_cut prev x) as F. destruct (match x with Some (c0 :: x') => (add_text_to_previous prev [c0], Some x') | _ => (prev, x) end) as [prev' x'].
  destruct (has_quotes _ _ _).
  - destruct (truthy (last_tail kids)).
    + destruct (cut_last _ kids) as [kids' s] eqn:E. apply cut_last_flow in E; [|intros; apply firstn_skipn]. rewrite <- Ec, !content_eq. cbn [ntail otext]. rewrite <- E, !app_assoc, F. reflexivity.
    + rewrite <- Ec, !content_eq. cbn [ntail]. rewrite !app_assoc, F. reflexivity.
  - destruct (right_quote c) as [q|]; [|now rewrite Ec]. destruct (existsb _ _); [now rewrite Ec|]. rewrite <- Ec, !content_eq. cbn [ntail]. rewrite !app_assoc, F. reflexivity.
Qed.
Lemma comma_keeps e : content (remove_comma e) ++ otext (ntail (remove_comma e)) = content e ++ otext (ntail e).
Proof.
  destruct e as [m nm a x kids t|]; [|reflexivity]. cbn [remove_comma]. destruct (_ =? 0); [reflexivity|]. destruct (truthy (last_tail kids)); [|reflexivity].
  destruct (cut_last _ kids) as [kids' s] eqn:E. apply cut_last_flow in E; [|intros; apply firstn_skipn]. rewrite !content_eq. cbn [ntail otext]. rewrite <- E, !app_assoc. reflexivity.
Qed.
Lemma clean_keeps prev c : keeps clean_title prev c.
Proof.
  intros p' l b. unfold clean_title. pose proof (quotes_keeps prev c) as Q. destruct (remove_quotes prev c) as [prev' e']. intros [= <- <- <-]. cbn [flow flat_map]. now rewrite app_nil_r, comma_keeps.
Qed.
End Actions.

(* ---------------------------------------------------------------- *)
(** ** C47: new annotations *)
Section Annotate.
Variable find : finder.
Variable create : str -> node.
Hypothesis Hfind : in_range find.
Hypothesis Hcreate : forall s, content (create s) = s.
Lemma annotate_text_keeps e e' : annotate_text find create e = Ok (Some e') -> content e' = content e /\ ntail e' = ntail e.
Proof.
  destruct e as [m nm a [[|y text]|] kids t|]; try discriminate. cbn [annotate_text]. destruct (find (y :: text)) as [[[i j]|]|] eqn:E; cbn [bind]; [|discriminate|discriminate].
  intros [= <-]. split; [|reflexivity]. rewrite !content_eq, flow_cons, content_set_tail, ntail_set_tail, Hcreate. cbn [otext]. rewrite !app_assoc, <- (app_assoc (firstn i _)). now rewrite slice3 by eauto.
Qed.
Lemma annotate_tail_keeps c new : annotate_tail find create c = Ok (Some new) -> flow new = flow [c].
Proof.
  unfold annotate_tail. destruct (ntail c) as [[|y text]|] eqn:Et; try discriminate. destruct (find (y :: text)) as [[[i j]|]|] eqn:E; cbn [bind]; [|discriminate|discriminate].
  intros [= <-]. cbn [flow flat_map]. rewrite !content_set_tail, !ntail_set_tail, Hcreate, Et, !app_nil_r, <- app_assoc. cbn [otext]. f_equal. apply slice3. eauto.
Qed.
(** the element may be put behind the text that followed the comment *)
Lemma annotate_comment_keeps c new : annotate_comment find create c = Ok (Some new) -> flow (nkids c) ++ otext (ntail c) = [] -> flow new = flow [c].
Proof.
  destruct c as [m nm a [[|y text]|] kids t|]; try discriminate. cbn [annotate_comment nkids ntail]. destruct (find (y :: text)) as [[[i j]|]|] eqn:E; cbn [bind]; [|discriminate|discriminate].
  intros [= <-] H. apply app_eq_nil in H as [H1 H2]. rewrite !flow_cons, content_set_tail, ntail_set_tail, Hcreate, !content_eq. cbn [ntail otext flow flat_map]. unfold flow in H1. fold (flow kids) in *. 
  rewrite H1, H2, !app_nil_r. apply slice3. eauto.
Qed.
Lemma first_kid_keeps sel f l : forall l', first_kid sel f l = Ok (Some l') -> (forall c new, In c l -> sel c = true -> f c = Ok (Some new) -> flow new = flow [c]) -> flow l' = flow l.
Proof.
  induction l as [|c l IH]; intros l'; cbn [first_kid]; [discriminate|]. intros E H. destruct (sel c) eqn:Es.
  - destruct (f c) as [[new|]|] eqn:Ef; cbn [bind] in E; [| |discriminate].
    + injection E as <-. rewrite flow_app, (H c new (or_introl eq_refl) Es Ef). cbn [flow flat_map]. now rewrite app_nil_r.
    + destruct (first_kid sel f l) as [[l''|]|]; cbn in E; [|discriminate|discriminate]. injection E as <-. rewrite !(flow_cons c). rewrite (IH _ eq_refl); [reflexivity|]. intros d new Hd. apply H. now right.
  - cbn [bind] in E. destruct (first_kid sel f l) as [[l''|]|]; cbn in E; [|discriminate|discriminate]. injection E as <-. rewrite !(flow_cons c). rewrite (IH _ eq_refl); [reflexivity|]. intros d new Hd. apply H. now right.
Qed.
Definition comment_ok (c : node) : Prop := named "comment" c = true -> flow (nkids c) ++ otext (ntail c) = [].
Lemma annotate_keeps parse prev c : (parse = true -> Forall comment_ok (nkids c)) -> keeps (annotate find create parse) prev c.
Proof.
  intros Hc p' l b. unfold annotate. destruct (annotate_text find create c) as [[e'|]|] eqn:E; cbn [bind]; [| |discriminate].
  - intros [= <- <- <-]. destruct (annotate_text_keeps _ _ E) as [Q1 Q2]. cbn [flow flat_map]. now rewrite Q1, Q2, app_nil_r.
  - assert (Same : Ok (prev, [c], false) = Ok (p', l, b) -> otext p' ++ flow l = otext prev ++ content c ++ otext (ntail c)) by (intros [= <- <- <-]; cbn [flow flat_map]; now rewrite app_nil_r).
    destruct c as [m nm a x kids t|t]; [|exact Same].
    assert (Kids : forall kids' b', flow kids' = flow kids -> Ok (prev, [El m nm a x kids' t], b') = Ok (p', l, b) -> otext p' ++ flow l = otext prev ++ content (El m nm a x kids t) ++ otext (ntail (El m nm a x kids t))).
    { intros kids' b' F [= <- <- <-]. rewrite flow_cons, !content_eq, F. cbn [ntail flow flat_map]. now rewrite app_nil_r. }
    destruct (first_kid is_element _ kids) as [[kids'|]|] eqn:Et; cbn [bind]; [| |discriminate].
    + apply Kids. eapply first_kid_keeps; [exact Et|]. intros d new _ _. apply annotate_tail_keeps.
    + destruct parse; [|exact Same]. destruct (first_kid (named "comment") _ kids) as [[kids'|]|] eqn:Ec; cbn [bind]; [| |discriminate]; [|exact Same].
      apply Kids. eapply first_kid_keeps; [exact Ec|]. intros d new Hd Hs Hn. apply annotate_comment_keeps; [exact Hn|]. specialize (Hc eq_refl). cbn [nkids] in Hc. rewrite Forall_forall in Hc. now apply Hc.
Qed.
End Annotate.

(** The text is cut in three; the new element holds the middle. *)
Theorem C47_text find create m nm a text kids t e' : in_range find -> (forall s, content (create s) = s) ->
  annotate_text find create (El m nm a (Some text) kids t) = Ok (Some e') ->
  content e' = content (El m nm a (Some text) kids t) /\
  exists i j before middle after new, find text = Ok (Some (i, j)) /\ text = before ++ middle ++ after /\ length before = Nat.min i (length text) /\
    length (before ++ middle) = Nat.min j (length text) /\ e' = El m nm a (Some before) (new :: kids) t /\ content new = middle /\ ntail new = Some after.
Proof.
  intros Hf Hc E. split; [now apply (annotate_text_keeps find create Hf Hc)|]. destruct text as [|y text]; [discriminate|]. cbn [annotate_text] in E.
  destruct (find (y :: text)) as [[[i j]|]|] eqn:Ef; cbn [bind] in E; [|discriminate|discriminate]. injection E as <-. set (s := y :: text) in *.
  exists i, j, (firstn i s), (slice s i j), (skipn j s), (set_tail (Some (skipn j s)) (create (slice s i j))). pose proof (Hf _ _ _ Ef) as Hij.
  split; [reflexivity|]. split; [symmetry; now apply slice3|]. split; [apply firstn_length|]. split; [|split; [reflexivity|split; [now rewrite content_set_tail|apply ntail_set_tail]]].
  unfold slice. rewrite app_length, !firstn_length, skipn_length. lia.
Qed.
Theorem C47_tail find create c text new : in_range find -> (forall s, content (create s) = s) -> ntail c = Some text ->
  annotate_tail find create c = Ok (Some new) ->
  flow new = flow [c] /\
  exists i j before middle after added, find text = Ok (Some (i, j)) /\ text = before ++ middle ++ after /\ length before = Nat.min i (length text) /\
    length (before ++ middle) = Nat.min j (length text) /\ new = [set_tail (Some before) c; added] /\ content added = middle /\ ntail added = Some after.
Proof.
  intros Hf Hc Et E. split; [now apply (annotate_tail_keeps find create Hf Hc)|]. unfold annotate_tail in E. rewrite Et in E. destruct text as [|y text]; [discriminate|].
  destruct (find (y :: text)) as [[[i j]|]|] eqn:Ef; cbn [bind] in E; [|discriminate|discriminate]. injection E as <-. set (s := y :: text) in *.
  exists i, j, (firstn i s), (slice s i j), (skipn j s), (set_tail (Some (skipn j s)) (create (slice s i j))). pose proof (Hf _ _ _ Ef) as Hij.
  split; [reflexivity|]. split; [symmetry; now apply slice3|]. split; [apply firstn_length|]. split; [|split; [reflexivity|split; [now rewrite content_set_tail|apply ntail_set_tail]]].
  unfold slice. rewrite app_length, !firstn_length, skipn_length. lia.
Qed.
(** A whole reference, without looking at comments: no condition. *)
Theorem C47_reference find create ref ref' : in_range find -> (forall s, content (create s) = s) ->
  add_annotation find create false ref = Ok ref' -> content ref' = content ref.
Proof. intros Hf Hc E. apply (each_keeps_always mixed_citation) in E; [apply E|]. intros prev c. apply (annotate_keeps find create Hf Hc). discriminate. Qed.

(** With comments: these must have no elements inside and no text behind them. *)
Definition plain_comment (c : node) : Prop := named "comment" c = true -> nkids c = [] /\ truthy (ntail c) = false.
Section Comments.
Variable find : finder.
Variable create : str -> node.
Hypothesis Hfind : in_range find.
Hypothesis Hcreate : forall s, content (create s) = s /\ named "comment" (create s) = false /\ nkids (create s) = [] /\ mark_of (create s) = None.
Let CR (c : node) : Prop := plain_comment c /\ (mark_of c <> None -> mixed_citation c = true).
Lemma new_CR s t : CR (set_tail t (create s)) /\ below CR (set_tail t (create s)).
Proof.
  destruct (Hcreate s) as (_ & H1 & H2 & H3). split; [split|apply below_set_tail, below_eq; rewrite H2; constructor].
  - intros H. replace (named "comment" (set_tail t (create s))) with (named "comment" (create s)) in H by (destruct (create s); reflexivity). congruence.
  - intros H. replace (mark_of (set_tail t (create s))) with (mark_of (create s)) in H by (destruct (create s); reflexivity). congruence.
Qed.
Lemma first_kid_all sel f (K : node -> Prop) l : forall l', first_kid sel f l = Ok (Some l') -> Forall K l -> (forall c new, K c -> sel c = true -> f c = Ok (Some new) -> Forall K new) -> Forall K l'.
Proof.
  induction l as [|c l IH]; intros l'; cbn [first_kid]; [discriminate|]. intros E Hl H. inversion Hl as [|? ? Hl1 Hl2]; subst.
  assert (Rest : forall r, bind (first_kid sel f l) (fun r => Ok (option_map (cons c) r)) = r -> r = Ok (Some l') -> Forall K l').
  { intros r <- Q. destruct (first_kid sel f l) as [[l''|]|]; cbn in Q; [|discriminate|discriminate]. injection Q as <-. constructor; [exact Hl1|]. eapply IH; eauto. }
  destruct (sel c) eqn:Es; [|eapply Rest; [reflexivity|exact E]]. destruct (f c) as [[new|]|] eqn:Ef; cbn [bind] in E; [|eapply Rest; [reflexivity|exact E]|discriminate].
  injection E as <-. apply Forall_app. split; [eapply H; eauto|exact Hl2].
Qed.
Lemma CR_tail c t : CR c -> named "comment" c = false -> CR (set_tail t c).
Proof. intros [_ H] Hn. destruct c as [m nm a x kids t0|]; [|split; [discriminate|intros K; now elim K]]. split; [|exact H]. intros K. change (named "comment" (El m nm a x kids t0) = true) in K. congruence. Qed.
Lemma annotate_CR parse k prev c p' l b : has_mark k c = true -> CR c -> below CR c -> annotate find create parse prev c = Ok (p', l, b) -> Forall (fun d => CR d /\ below CR d) l.
Proof.
  intros Hm Hr Hb. assert (Hcit : mixed_citation c = true) by (apply Hr; destruct c as [[j|] ? ? ? ? ?|]; discriminate).
  assert (Hout : forall m nm a x kids t x' kids', c = El m nm a x kids t -> Forall (fun d => CR d /\ below CR d) kids' -> CR (El m nm a x' kids' t) /\ below CR (El m nm a x' kids' t)).
  { intros m nm a x kids t x' kids' -> Hk. split; [|now apply below_eq]. split; [|intros _; exact Hcit]. intros K. cbn in K, Hcit. unfold mixed_citation in Hcit. cbn in Hcit. apply streq_true in K, Hcit. subst nm. discriminate. }
  assert (Same : Ok (prev, [c], false) = Ok (p', l, b) -> Forall (fun d => CR d /\ below CR d) l) by (intros [= <- <- <-]; auto).
  unfold annotate. destruct (annotate_text find create c) as [[e'|]|] eqn:E; cbn [bind]; [| |discriminate].
  - intros [= <- <- <-]. constructor; [|constructor]. destruct c as [m nm a [[|y text]|] kids t|]; try discriminate. cbn [annotate_text] in E. destruct (find (y :: text)) as [[[i j]|]|]; cbn [bind] in E; [|discriminate|discriminate]. injection E as <-.
    eapply Hout; [reflexivity|]. constructor; [apply new_CR|]. now apply below_eq in Hb.
  - destruct c as [m nm a x kids t|t]; [|exact Same]. pose proof Hb as Hb'. apply below_eq in Hb'. cbn [nkids] in Hb'.
    destruct (first_kid is_element _ kids) as [[kids'|]|] eqn:Et; cbn [bind]; [| |discriminate].
    + intros [= <- <- <-]. constructor; [|constructor]. eapply Hout; [reflexivity|]. eapply first_kid_all; [exact Et|exact Hb'|]. intros d new [Hd1 Hd2] _. unfold annotate_tail.
      destruct (ntail d) as [[|y text]|] eqn:En; try discriminate. destruct (find (y :: text)) as [[[i j]|]|]; cbn [bind]; [|discriminate|discriminate]. intros [= <-]. constructor; [|constructor; [apply new_CR|constructor]].
      split; [|now apply below_set_tail]. apply CR_tail; [exact Hd1|]. destruct (named "comment" d) eqn:Q; [|reflexivity]. destruct Hd1 as [Hd1 _]. destruct (Hd1 Q) as [_ Z]. rewrite En in Z. discriminate.
    + destruct parse; [|exact Same]. destruct (first_kid (named "comment") _ kids) as [[kids'|]|] eqn:Ec; cbn [bind]; [| |discriminate]; [|exact Same]. intros [= <- <- <-]. constructor; [|constructor]. eapply Hout; [reflexivity|].
      eapply first_kid_all; [exact Ec|exact Hb'|]. intros d new [Hd1 Hd2] _. destruct d as [m' nm' a' [[|y text]|] ks t'|]; try discriminate. cbn [annotate_comment]. destruct (find (y :: text)) as [[[i j]|]|]; cbn [bind]; [|discriminate|discriminate].
      intros [= <-]. constructor; [|constructor; [apply new_CR|constructor]]. split; [exact Hd1|]. exact Hd2.
Qed.
Lemma annotate_prev parse prev c p' l b : annotate find create parse prev c = Ok (p', l, b) -> p' = prev.
Proof.
  unfold annotate. destruct (annotate_text find create c) as [[e'|]|]; cbn [bind]; [now intros [= <- <- <-]| |discriminate]. destruct c as [m nm a x kids t|t]; [|now intros [= <- <- <-]].
  destruct (first_kid is_element _ kids) as [[kids'|]|]; cbn [bind]; [now intros [= <- <- <-]| |discriminate]. destruct parse; [|now intros [= <- <- <-]].
  destruct (first_kid (named "comment") _ kids) as [[kids'|]|]; cbn [bind]; [now intros [= <- <- <-]|now intros [= <- <- <-]|discriminate].
Qed.
Lemma comments_all parse ref ref' : below plain_comment ref -> add_annotation find create parse ref = Ok ref' -> content ref' = content ref /\ ntail ref' = ntail ref /\ below plain_comment ref'.
Proof.
  intros Hb. unfold add_annotation, each. pose proof (label_content mixed_citation ref 0) as Hc. pose proof (label_tail mixed_citation 0 ref) as Ht.
  assert (H : below CR (snd (label mixed_citation 0 ref))).
  { apply (label_below mixed_citation plain_comment); [|exact Hb]. intros c n m H H1 H2. destruct c as [m0 nm a x kids t|t]; [|split; [discriminate|intros K; now elim K]].
    pose proof (null_label mixed_citation n kids) as K. rewrite label_eq. destruct (label_kids mixed_citation n kids) as [n' kids']. cbn [snd set_mark] in *. split.
    - intros Q. destruct (H Q) as [Z1 Z2]. cbn in Z1. subst kids. split; [|exact Z2]. destruct kids'; [reflexivity|discriminate].
    - cbn [mark_of]. intros Q. destruct (mixed_citation (El m0 nm a x kids t)) eqn:Z; [exact Z|]. now rewrite (H2 eq_refl) in Q. }
  destruct (label mixed_citation 0 ref) as [n e1]. cbn [snd] in *. destruct (loop _ 0 n e1) as [e2|] eqn:E; [|discriminate]. cbn [bind]. intros [= <-]. rewrite unmark_content, unmark_tail, <- Hc, <- Ht.
  assert (Z : content e2 = content e1 /\ ntail e2 = ntail e1 /\ exists k', below ((fun _ : nat => CR) k') e2).
  { apply (loop_content (annotate find create parse) false (fun _ => CR)) with (n := n) (k := 0); [| | | | |exact E|exact H].
    - intros _ k prev c p' l b _ _. apply annotate_prev.
    - intros k c t Hr [Q|Q]; [discriminate|]. rewrite Q, set_tail_same. exact Hr.
    - intros k m nm a x kids t x' kids' b [H1 H2] _ E1. split; [|exact H2]. intros K. change (named "comment" (El m nm a x kids t) = true) in K. destruct (H1 K) as [Z _]. cbn in Z. subst kids. discriminate.
    - intros k prev c p' l b Hm Hr Hbc. now apply (annotate_CR parse k).
    - intros k prev c Hm Hr Hbc. apply annotate_keeps; [exact Hfind|intros s; apply Hcreate|]. intros _. apply below_eq in Hbc. eapply Forall_impl; [|exact Hbc]. cbv beta. intros d [[Hd _] _] Hn. destruct (Hd Hn) as [Z1 Z2]. rewrite Z1. destruct (ntail d) as [[|? ?]|]; [reflexivity|discriminate|reflexivity]. }
  destruct Z as (Z1 & Z2 & k' & Z3). split; [exact Z1|]. split; [exact Z2|].
  assert (U : forall e, below CR e -> below plain_comment (unmark e)).
  { clear. intros e. induction e as [m nm a x kids t IH|t] using node_ind'; [|auto]. rewrite !below_eq. cbn [unmark nkids]. intros H. rewrite Forall_forall in *. intros d Hd. apply in_map_iff in Hd as (c & <- & Hc).
    destruct (H c Hc) as [[H1 _] H2]. split; [|auto]. intros K. assert (K' : named "comment" c = true) by (destruct c; exact K). destruct (H1 K') as [Q1 Q2]. rewrite unmark_tail. split; [|exact Q2]. destruct c as [? ? ? ? ks ?|]; [|reflexivity]. cbn in Q1 |- *. now rewrite Q1. }
  apply U. exact Z3.
Qed.
End Comments.
Theorem C47_comment_partial find create ref ref' : in_range find ->
  (forall s, content (create s) = s /\ named "comment" (create s) = false /\ nkids (create s) = [] /\ mark_of (create s) = None) ->
  below plain_comment ref -> add_annotation find create true ref = Ok ref' -> content ref' = content ref.
Proof. intros Hf Hc Hb E. now apply (comments_all find create Hf Hc true) in E. Qed.

(* ---------------------------------------------------------------- *)
(** ** C48: moving text in or out of an annotation *)
(** What was found stays in the element, the rest goes before and behind it. *)
Theorem C48_found find prev m nm a text kids t i j : find text = Ok (Some (i, j)) -> i <= j ->
  exists before middle after, text = before ++ middle ++ after /\ length before = Nat.min i (length text) /\ length (before ++ middle) = Nat.min j (length text) /\
  change_annotation find prev (El m nm a (Some text) kids t) =
    Ok (Some (otext prev ++ before), [El m nm a (Some middle) kids (Some (after ++ otext t))], false).
Proof.
  intros E Hij. exists (firstn i text), (slice text i j), (skipn j text). split; [symmetry; now apply slice3|]. split; [apply firstn_length|].
  split; [unfold slice; rewrite app_length, !firstn_length, skipn_length; lia|]. cbn [change_annotation]. now rewrite E.
Qed.
(** Nothing found: the element goes; what it had inside and the text behind it is lost. *)
Theorem C48_replace find prev m nm a text kids t : find text = Ok None ->
  exists p' l, change_annotation find prev (El m nm a (Some text) kids t) = Ok (p', l, false) /\
  (otext p' ++ flow l = otext prev ++ content (El m nm a (Some text) kids t) ++ otext t <-> flow kids = [] /\ otext t = []).
Proof.
  intros E. cbn [change_annotation]. rewrite E. cbn [bind]. do 2 eexists. split; [reflexivity|]. cbn [flow flat_map add_text_to_previous otext content]. fold (flow kids). rewrite app_nil_r, <- !app_assoc.
  split.
  - intros H. apply app_inv_head in H. rewrite <- (app_nil_r text) in H at 1. apply app_inv_head in H. symmetry in H. now apply app_eq_nil in H.
  - intros [-> ->]. now rewrite !app_nil_r.
Qed.
(** All elements of a list: none in another one; text found; nothing inside the element, or
    nothing after what was found *)
Definition found_in (find : finder) (a : list (str * str)) (x : ostr) (inside : str) (t : ostr) : Prop :=
  match x with
  | None => True
  | Some text => exists i j, find text = Ok (Some (i, j)) /\ i <= j /\ (inside = [] \/ skipn j text = [])
  end.
Theorem C48_partial p find e e' : by_name p -> below (safe_for p (found_in find)) e ->
  each p (change_annotation find) e = Ok e' -> content e' = content e.
Proof.
  intros Hp Hs E. apply (each_keeps p (change_annotation find) (found_in find) true) in E; [apply E|discriminate| | | |exact Hs].
  - intros _ b x f t t' H. exact H.
  - intros prev c p' l b. apply change_shape.
  - intros prev m nm a x kids t H. apply change_keeps. exact H.
Qed.
Lemma named_by_name s : by_name (named s).
Proof. split; reflexivity. Qed.
Lemma type_by_name s : by_name (pub_id_of s).
Proof. split; reflexivity. Qed.

(* ---------------------------------------------------------------- *)
(** ** C68: a whole reference *)
Section Reference.
Variables sp wd dg : N -> bool.
Variable token_at : str -> bool.
Variables nopunct nopunct_space : str -> str.
Variables find_pii_valid find_pii_other find_pmid find_pmid_fix find_pmcid find_wos find_doi_url_prefix : str -> option (nat * nat).
Variable repeated_doi : str -> option nat.
Variable lower : str -> str.
Hypothesis Hclasses : classes_ok sp wd dg.
(** regular expressions give ranges *)
Definition range (f : str -> option (nat * nat)) : Prop := forall t i j, f t = Some (i, j) -> i <= j.
Hypothesis Hranges : range find_pii_valid /\ range find_pii_other /\ range find_pmid /\ range find_pmid_fix /\ range find_pmcid /\ range find_wos.
Notation find_doi := (find_doi sp wd dg token_at nopunct nopunct_space).
Notation fix_reference := (fix_reference sp wd dg token_at nopunct nopunct_space find_pii_valid find_pii_other find_pmid find_pmid_fix find_pmcid find_wos find_doi_url_prefix repeated_doi lower).
Notation steps := (steps sp wd dg token_at nopunct nopunct_space find_pii_valid find_pii_other find_pmid find_pmid_fix find_pmcid find_wos find_doi_url_prefix repeated_doi lower).
Notation find_link := (fun t => Ok (Some (find_ext_link repeated_doi t))).

Lemma range_finding f : range f -> in_range (finding f).
Proof. intros H t i j E. unfold finding in E. injection E as E. eauto. Qed.
Lemma doi_range : in_range find_doi.
Proof.
  intros t i j E. destruct (C49_doi sp wd dg token_at nopunct nopunct_space Hclasses t) as (r & Er & Hr). unfold ModelJats.find_doi in E. rewrite Er in E. injection E as ->.
  destruct Hr as (a & h & b & c & _ & _ & -> & -> & _). lia.
Qed.
Lemma new_content type s : content (new_pub_id type s) = s.
Proof. cbn. apply app_nil_r. Qed.
Lemma new_all type s : content (new_pub_id type s) = s /\ named "comment" (new_pub_id type s) = false /\ nkids (new_pub_id type s) = [] /\ mark_of (new_pub_id type s) = None.
Proof. split; [apply new_content|auto]. Qed.

(** When is a step safe? *)
Definition change_safe (p : node -> bool) (find : finder) (e : node) : Prop := below (safe_for p (found_in find)) e.
Definition no_inside : list (str * str) -> ostr -> str -> ostr -> Prop := fun _ _ inside _ => inside = [].
Definition one_url : list (str * str) -> ostr -> str -> ostr -> Prop := fun _ x inside t =>
  forall text, x = Some text -> length (split_url text) <= 1 \/ inside ++ otext t = [].
Definition title_safe := change_safe article_title (find_title sp dg).
Definition doi_safe := change_safe (pub_id_of "doi") find_doi.
Definition replace_safe := below (safe_for (pub_id_of "doi") no_inside).
Definition link_safe (e : node) : Prop :=
  below (safe_for ext_link one_url) e /\ forall e', each ext_link (split_link sp) e = Ok e' -> change_safe ext_link find_link e'.
Definition pii_safe := change_safe (pub_id_of "pii") (finding find_pii_valid).
Definition pmid_safe := change_safe (pub_id_of "pmid") (finding find_pmid_fix).
Definition pmcid_safe := change_safe (pub_id_of "pmcid") (finding find_pmcid).
Definition comments_safe (present : node -> bool) (e : node) : Prop := any present e = true \/ below plain_comment e.
Definition always (_ : node) : Prop := True.
Definition safes : list (node -> Prop) :=
  [always; title_safe; doi_safe; replace_safe; link_safe; pii_safe; pmid_safe; pmcid_safe;
   comments_safe (pub_id_of "pmid"); comments_safe (pub_id_of "pmcid"); always; always; below plain_comment; always].
(** every step is safe when it is reached *)
Fixpoint safe_run (fs : list (node -> res node)) (ss : list (node -> Prop)) (e : node) : Prop :=
  match fs, ss with
  | f :: fs', s :: ss' => s e /\ forall e', f e = Ok e' -> safe_run fs' ss' e'
  | _, _ => True
  end.
Definition step_keeps (f : node -> res node) (s : node -> Prop) : Prop := forall e e', s e -> f e = Ok e' -> content e' = content e.
Lemma run_keeps fs ss : Forall2 step_keeps fs ss -> forall e e', safe_run fs ss e -> foldM (fun e f => f e) e fs = Ok e' -> content e' = content e.
Proof.
  induction 1 as [|f s fs ss H1 H2 IH]; intros e e'; cbn [foldM safe_run]; [now intros _ [= <-]|]. intros [Hs Hr] E. destruct (f e) as [e1|] eqn:Ef; [|discriminate]. cbn [bind] in E.
  rewrite (IH e1 e' (Hr e1 eq_refl) E). eapply H1; eauto.
Qed.
Lemma change_step p find : by_name p -> step_keeps (each p (change_annotation find)) (change_safe p find).
Proof. intros Hp e e' Hs E. eapply C48_partial; eauto. Qed.
Lemma add_step present find type : in_range find -> step_keeps (add_if_not_present present find type false) always.
Proof.
  intros Hf e e' _. unfold add_if_not_present. destruct (any present e); [now intros [= <-]|]. apply C47_reference; [exact Hf|apply new_content].
Qed.
Lemma add_comment_step present find type : in_range find -> step_keeps (add_if_not_present present find type true) (comments_safe present).
Proof.
  intros Hf e e' Hs. unfold add_if_not_present. destruct (any present e) eqn:E; [now intros [= <-]|]. destruct Hs as [Hs|Hs]; [congruence|]. apply C47_comment_partial; [exact Hf|apply new_all|exact Hs].
Qed.
Lemma steps_keep : Forall2 step_keeps steps safes.
Proof.
  destruct Hranges as (R1 & R2 & R3 & R4 & R5 & R6). unfold ModelJats.steps, safes. repeat (apply Forall2_cons; [|]); [..|apply Forall2_nil].
  - intros e e' _ E. apply each_keeps_always in E; [apply E|]. apply lower_keeps.
  - intros e e' Hs E. unfold ModelJats.fix_article_title in E. destruct (each article_title (change_annotation (find_title sp dg)) e) as [e1|] eqn:E1; [|discriminate]. cbn [bind] in E.
    apply each_keeps_always in E; [|apply clean_keeps]. destruct E as [-> _]. revert E1. apply (change_step article_title); [apply named_by_name|exact Hs].
  - apply change_step, type_by_name.
  - intros e e' Hs E. apply (each_keeps (pub_id_of "doi") (doi_to_link sp find_doi_url_prefix) no_inside true) in E; [apply E|discriminate| | | |exact Hs].
    + intros _ a x f t t' H. exact H.
    + intros prev c p' l b. apply link_shape.
    + intros prev m nm a x kids t H. now apply link_keeps.
  - intros e e' [Hs Hs2] E. unfold ModelJats.fix_ext_link in E. destruct (each ext_link (split_link sp) e) as [e1|] eqn:E1; [|discriminate]. cbn [bind] in E.
    destruct (each ext_link (change_annotation find_link) e1) as [e2|] eqn:E2; [|discriminate]. cbn [bind] in E. apply each_keeps_always in E; [|apply href_keeps]. destruct E as [-> _].
    rewrite (change_step ext_link find_link (named_by_name "ext-link") e1 e2 (Hs2 e1 eq_refl) E2).
    apply (each_keeps ext_link (split_link sp) one_url false) in E1; [apply E1| |discriminate| | |exact Hs].
    + intros _ prev c p' l b. apply split_prev.
    + intros prev c p' l b. apply split_shape.
    + intros prev m nm a x kids t H. apply split_keeps. exact H.
  - apply change_step, type_by_name.
  - apply change_step, type_by_name.
  - apply change_step, type_by_name.
  - apply add_comment_step. now apply range_finding.
  - apply add_comment_step. now apply range_finding.
  - apply add_step. now apply range_finding.
  - apply add_step. now apply range_finding.
  - intros e e' Hs E. revert E. apply C47_comment_partial; [now apply range_finding|apply new_all|exact Hs].
  - apply add_step, doi_range.
Qed.
(** The text of a reference stays if every step is safe when it is reached. *)
Theorem C68_partial ref ref' : safe_run steps safes ref -> fix_reference ref = Ok ref' -> content ref' = content ref.
Proof. apply run_keeps, steps_keep. Qed.

(** *** A condition on the reference alone *)
(** [str.lower] leaves the known types, which are lower case, as they are *)
Hypothesis Hlower : forall ty, In ty KNOWN_PUB_ID_TYPES -> lower ty = ty.
(** the type after the first step *)
Definition pub_type (a : list (str * str)) : ostr :=
  match dict_get PUB_ID_TYPE a with
  | Some ((_ :: _) as ty) => Some (if mem (lower ty) KNOWN_PUB_ID_TYPES then lower ty else ty)
  | o => o
  end.
Definition found (f : str -> option (nat * nat)) (x : ostr) : Prop := match x with None => True | Some text => f text <> None end.
(** no links, DOIs and comments; titles and identifiers have nothing inside; what
    identifiers stand for can be found *)
Definition TT (tys : list (str * (str -> option (nat * nat)))) (nm : str) (a : list (str * str)) (x : ostr) (leaf : bool) (t : ostr) : Prop :=
  nm <> u "ext-link"%string /\ nm <> u "comment"%string /\ (nm = u "article-title"%string -> leaf = true) /\
  (nm = u "pub-id"%string -> leaf = true /\ forall ty, pub_type a = Some ty -> ty <> u "doi"%string /\ forall f, In (ty, f) tys -> found f x).
Definition simple_types := [(u "pii"%string, find_pii_valid); (u "pmid"%string, find_pmid_fix); (u "pmcid"%string, find_pmcid)].
Definition simple_reference (ref : node) : Prop := below (TN (TT simple_types)) ref.

Lemma TT_tail tys nm a x b t t' : TT tys nm a x b t -> TT tys nm a x b t'.
Proof. auto. Qed.
Lemma TT_text tys nm a x t x' b : TT tys nm a x false t -> TT tys nm a x' b t.
Proof. intros (H1 & H2 & H3 & H4). split; [exact H1|]. split; [exact H2|]. split; intros H; [now apply H3 in H|now apply H4 in H]. Qed.
Lemma pub_type_known a ty : In ty KNOWN_PUB_ID_TYPES -> dict_get PUB_ID_TYPE a = Some ty -> pub_type a = Some ty.
Proof.
  intros Hk E. unfold pub_type. rewrite E. destruct ty as [|c ty]; [cbn in Hk; intuition discriminate|]. rewrite (Hlower _ Hk). destruct (mem (c :: ty) KNOWN_PUB_ID_TYPES); reflexivity.
Qed.
Lemma type_of_pub type m nm a x kids t : pub_id_of type (El m nm a x kids t) = true -> nm = u "pub-id"%string /\ dict_get PUB_ID_TYPE a = Some (u type).
Proof. intros H. apply andb_true_iff in H as [H1 H2]. cbn in H1, H2. apply streq_true in H1. apply ostreq_true in H2. auto. Qed.
Lemma no_doi_TT tys c : TN (TT tys) c -> pub_id_of "doi" c = false.
Proof.
  destruct c as [m nm a x kids t|]; [|reflexivity]. intros (_ & _ & _ & H). destruct (pub_id_of "doi" (El m nm a x kids t)) eqn:E; [|reflexivity]. apply type_of_pub in E as [E1 E2].
  destruct (H E1) as [_ K]. destruct (K (u "doi"%string)) as [K1 _]; [apply pub_type_known; [cbn; tauto|exact E2]|]. congruence.
Qed.
Lemma no_link_TT tys c : TN (TT tys) c -> ext_link c = false.
Proof. destruct c as [m nm a x kids t|]; [|reflexivity]. intros (H & _). unfold ext_link. cbn. now apply streq_false. Qed.
Lemma no_comment_TT tys e : below (TN (TT tys)) e -> below plain_comment e.
Proof. apply below_imp. intros c. destruct c as [m nm a x kids t|]; [|discriminate]. intros (_ & H & _) K. cbn in K. apply streq_true in K. contradiction. Qed.
Lemma leaf_any p m nm a x kids t : null kids = true -> any p (El m nm a x kids t) = false.
Proof. destruct kids; [reflexivity|discriminate]. Qed.
(** steps that change one element with another text *)
Definition other_text (act : change) : Prop := forall prev m nm a x kids t p' l b, act prev (El m nm a x kids t) = Ok (p', l, b) ->
  null kids = true -> Forall (fun d => exists x' t', d = El m nm a x' kids t') l.
Lemma change_other find : other_text (change_annotation find).
Proof.
  intros prev m nm a x kids t p' l b. cbn [change_annotation]. destruct x as [text|]; [|intros [= <- <- <-]; eauto]. destruct (find text) as [[[i j]|]|]; cbn; [|intros [= <- <- <-]; auto|discriminate].
  intros [= <- <- <-]. eauto.
Qed.
Lemma clean_other : other_text clean_title.
Proof.
  intros prev m nm a x kids t p' l b E Hk. destruct kids; [|discriminate]. unfold clean_title in E.
  assert (Q : exists x' t', snd (remove_quotes prev (El m nm a x [] t)) = El m nm a x' [] t').
  { cbn [remove_quotes]. destruct (content (El m nm a x [] t)) as [|c [|c2 rest]]; [cbn; eauto|cbn; eauto|]. destruct (match x with Some (c0 :: x') => (add_text_to_previous prev [c0], Some x') | _ => (prev, x) end) as [pp xx].
    destruct (has_quotes _ _ _); [cbn; eauto|]. destruct (right_quote c); [|cbn; eauto]. destruct (existsb _ _); cbn; eauto. }
  destruct (remove_quotes prev (El m nm a x [] t)) as [pp e1]. cbn [snd] in Q. destruct Q as (x' & t' & ->). injection E as <- <- <-. constructor; [|constructor].
  cbn [remove_comma]. destruct (_ =? 0); [eauto|]. cbn. eauto.
Qed.
Lemma inv_other p act tys e e' : by_name p -> other_text act ->
  (forall m nm a x t x' t', p (El m nm a x [] t) = true -> TT tys nm a x true t -> TT tys nm a x' true t') ->
  (forall m nm a x kids t, p (El m nm a x kids t) = true -> TT tys nm a x (null kids) t -> null kids = true) ->
  below (TN (TT tys)) e -> each p act e = Ok e' -> below (TN (TT tys)) e'.
Proof.
  intros Hp Ho Ht Hl. apply (each_inv p act Hp (TT tys) (TT_tail tys) (TT_text tys)). intros prev c p' l b Hpc [H1 H2] Hb E.
  destruct c as [m nm a x kids t|t]; [|destruct Hp as [_ Hp]; rewrite Hp in Hpc; discriminate]. pose proof (Hl m nm a x kids t Hpc H1) as Hk. destruct kids; [|discriminate].
  specialize (Ho _ _ _ _ _ _ _ _ _ _ E eq_refl). eapply Forall_impl; [|exact Ho]. cbv beta. intros d (x' & t' & ->). split; [|exact I]. split; [eapply Ht; eauto|].
  intros _. destruct Hp as [Hp _]. rewrite Hp, <- (Hp m nm a x [] t). exact Hpc.
Qed.
Lemma inv_none p act tys e e' : by_name p -> (forall c, TN (TT tys) c -> p c = false) -> below (TN (TT tys)) e -> each p act e = Ok e' -> below (TN (TT tys)) e'.
Proof.
  intros Hp Hn. apply (each_inv p act Hp (TT tys) (TT_tail tys) (TT_text tys)). intros prev c p' l b Hpc [H1 _]. rewrite (Hn c H1) in Hpc. discriminate.
Qed.
Lemma safe_none p Q tys e : (forall c, TN (TT tys) c -> p c = false) -> below (TN (TT tys)) e -> below (safe_for p Q) e.
Proof. intros Hn. apply below_imp. intros c Hc Hpc. rewrite (Hn c Hc) in Hpc. discriminate. Qed.
Lemma inv_convert tys e e' : below (TN (TT tys)) e -> convert_types lower e = Ok e' -> below (TN (TT tys)) e'.
Proof.
  apply (each_inv pub_id (lower_type lower) (named_by_name "pub-id") (TT tys) (TT_tail tys) (TT_text tys)). intros prev c p' l b Hpc [H1 H2] Hb.
  assert (Same : Ok (prev, [c], false) = Ok (p', l, b) -> Forall (fun d => TP pub_id (TT tys) d /\ below (TP pub_id (TT tys)) d) l) by (intros [= <- <- <-]; constructor; [split; [split; assumption|assumption]|constructor]).
  destruct c as [m nm a x kids t|t]; [|discriminate]. cbn [lower_type]. destruct (dict_get PUB_ID_TYPE a) as [[|c ty]|] eqn:Et; [exact Same| |exact Same].
  destruct (mem (lower (c :: ty)) KNOWN_PUB_ID_TYPES) eqn:Em; [|exact Same]. intros [= <- <- <-]. constructor; [|constructor]. split; [|exact Hb]. split; [|intros _; exact Hpc].
  destruct H1 as (Q1 & Q2 & Q3 & Q4). split; [exact Q1|]. split; [exact Q2|]. split; [exact Q3|]. intros Hn. destruct (Q4 Hn) as [Q5 Q6]. split; [exact Q5|]. intros ty' E. apply Q6. 
  apply mem_In in Em. rewrite (pub_type_known _ (lower (c :: ty)) Em) in E by apply dict_get_set_same. rewrite <- E. unfold pub_type. rewrite Et. apply mem_In in Em. now rewrite Em.
Qed.
Lemma title_inv tys e e' : below (TN (TT tys)) e -> fix_article_title sp dg e = Ok e' -> below (TN (TT tys)) e'.
Proof.
  intros Hb. unfold fix_article_title. destruct (each article_title _ e) as [e1|] eqn:E1; [|discriminate]. cbn [bind].
  assert (Ht : forall m nm a x t x' t', article_title (El m nm a x [] t) = true -> TT tys nm a x true t -> TT tys nm a x' true t').
  { intros m nm a x t x' t' Hn (Q1 & Q2 & Q3 & Q4). split; [exact Q1|]. split; [exact Q2|]. split; [exact Q3|]. intros H. unfold article_title in Hn. cbn in Hn. apply streq_true in Hn. subst nm. discriminate. }
  assert (Hl : forall m nm a x kids t, article_title (El m nm a x kids t) = true -> TT tys nm a x (null kids) t -> null kids = true).
  { intros m nm a x kids t Hn (_ & _ & Q3 & _). apply Q3. unfold article_title in Hn. cbn in Hn. now apply streq_true in Hn. }
  apply (inv_other article_title clean_title tys); [apply named_by_name|apply clean_other|exact Ht|exact Hl|].
  revert E1. apply (inv_other article_title _ tys); [apply named_by_name|apply change_other|exact Ht|exact Hl|exact Hb].
Qed.
(** identifiers of one type, which is looked at no more afterwards *)
Lemma type_inv type f (tys tys' : list (str * (str -> option (nat * nat)))) e e' : In (u type) KNOWN_PUB_ID_TYPES -> tys = (u type, f) :: tys' -> (forall g, ~ In (u type, g) tys') ->
  below (TN (TT tys)) e -> each (pub_id_of type) (change_annotation (finding f)) e = Ok e' -> below (TN (TT tys')) e'.
Proof.
  intros Hk -> Hnot Hb.
  assert (Hb' : below (TN (TT tys')) e).
  { eapply below_imp; [|exact Hb]. intros c. destruct c as [m nm a x kids t|]; [|auto]. intros (Q1 & Q2 & Q3 & Q4). split; [exact Q1|]. split; [exact Q2|]. split; [exact Q3|]. intros H. destruct (Q4 H) as [Q5 Q6].
    split; [exact Q5|]. intros ty E. destruct (Q6 ty E) as [Q7 Q8]. split; [exact Q7|]. intros g Hg. apply Q8. now right. }
  apply (inv_other (pub_id_of type) _ tys'); [apply type_by_name|apply change_other| | |exact Hb'].
  - intros m nm a x t x' t' Hp (Q1 & Q2 & Q3 & Q4). split; [exact Q1|]. split; [exact Q2|]. split; [exact Q3|]. intros H. destruct (Q4 H) as [Q5 Q6]. split; [exact Q5|]. intros ty E. destruct (Q6 ty E) as [Q7 _]. split; [exact Q7|].
    intros g Hg. apply type_of_pub in Hp as [_ Hp]. apply (pub_type_known _ _ Hk) in Hp. rewrite Hp in E. injection E as <-. now apply Hnot in Hg.
  - intros m nm a x kids t Hp (_ & _ & _ & Q4). apply type_of_pub in Hp as [Hp _]. now apply Q4.
Qed.
Lemma type_safe type f tys e : In (u type) KNOWN_PUB_ID_TYPES -> range f -> In (u type, f) tys -> below (TN (TT tys)) e -> change_safe (pub_id_of type) (finding f) e.
Proof.
  intros Hk Hr Hin. apply below_imp. intros c Hc Hp. destruct c as [m nm a x kids t|]; [|discriminate]. destruct Hc as (_ & _ & _ & Q4). apply type_of_pub in Hp as [Hn Hp]. destruct (Q4 Hn) as [Q5 Q6].
  split; [now apply leaf_any|]. destruct (Q6 _ (pub_type_known _ _ Hk Hp)) as [_ Q7]. specialize (Q7 f Hin). destruct x as [text|]; [|exact I]. cbn in Q7 |- *. unfold finding. destruct (f text) as [[i j]|] eqn:E; [|congruence].
  exists i, j. split; [reflexivity|]. split; [eauto|]. left. destruct kids; [reflexivity|discriminate].
Qed.
Lemma title_is_safe tys e : below (TN (TT tys)) e -> title_safe e.
Proof.
  apply below_imp. intros c Hc Hp. destruct c as [m nm a x kids t|]; [|discriminate]. destruct Hc as (_ & _ & Q3 & _). unfold article_title in Hp. cbn in Hp. apply streq_true in Hp. specialize (Q3 Hp).
  split; [now apply leaf_any|]. destruct x as [text|]; [|exact I]. unfold found_in, find_title. pose proof (C49_title sp dg text) as L. destruct (find_article_title_start_end sp dg text) as [i j]. exists i, j. split; [reflexivity|]. split; [lia|]. left. destruct kids; [reflexivity|discriminate].
Qed.
Lemma plain_add present find type parse e e' : in_range find -> below plain_comment e -> add_if_not_present present find type parse e = Ok e' -> below plain_comment e'.
Proof.
  intros Hf Hb. unfold add_if_not_present. destruct (any present e); [now intros [= <-]|]. intros E. apply (comments_all find _ Hf (new_all type) parse) in E; [apply E|exact Hb].
Qed.
Lemma simple_safe ref : simple_reference ref -> safe_run steps safes ref.
Proof.
  intros Hs. unfold simple_reference in Hs. destruct Hranges as (R1 & R2 & R3 & R4 & R5 & R6). unfold ModelJats.steps, safes. cbn [safe_run].
  split; [exact I|]. intros e1 E1. apply (inv_convert _ _ _ Hs) in E1. clear Hs.
  split; [eapply title_is_safe; exact E1|]. intros e2 E2. apply (title_inv _ _ _ E1) in E2. clear E1.
  split; [apply (safe_none _ _ simple_types); [apply no_doi_TT|exact E2]|]. intros e3 E3. apply (inv_none _ _ simple_types _ _ (type_by_name "doi") (no_doi_TT _) E2) in E3. clear E2.
  split; [apply (safe_none _ _ simple_types); [apply no_doi_TT|exact E3]|]. intros e4 E4. apply (inv_none _ _ simple_types _ _ (type_by_name "doi") (no_doi_TT _) E3) in E4. clear E3.
  pose proof (named_by_name "ext-link") as NL. split.
  { split; [apply (safe_none _ _ simple_types); [apply no_link_TT|exact E4]|]. intros e' E'. apply (inv_none _ _ simple_types _ _ NL (no_link_TT _) E4) in E'. apply (safe_none _ _ simple_types); [apply no_link_TT|exact E']. }
  intros e5 E5. unfold fix_ext_link in E5. destruct (each ext_link (split_link sp) e4) as [e41|] eqn:E41; [|discriminate]. cbn [bind] in E5. destruct (each ext_link (change_annotation find_link) e41) as [e42|] eqn:E42; [|discriminate]. cbn [bind] in E5.
  apply (inv_none _ _ simple_types _ _ NL (no_link_TT _) E4) in E41. apply (inv_none _ _ simple_types _ _ NL (no_link_TT _) E41) in E42. apply (inv_none _ _ simple_types _ _ NL (no_link_TT _) E42) in E5. clear E4 E41 E42.
  assert (K1 : In (u "pii"%string) KNOWN_PUB_ID_TYPES) by (cbn; tauto). assert (K2 : In (u "pmid"%string) KNOWN_PUB_ID_TYPES) by (cbn; tauto). assert (K3 : In (u "pmcid"%string) KNOWN_PUB_ID_TYPES) by (cbn; tauto).
  split; [eapply type_safe; [exact K1|exact R1| |exact E5]; now left|]. intros e6 E6. apply (type_inv _ _ simple_types _ _ _ K1 eq_refl) in E6; [|intros g [Q|[Q|[]]]; discriminate|exact E5]. clear E5.
  split; [eapply type_safe; [exact K2|exact R4| |exact E6]; now left|]. intros e7 E7. apply (type_inv _ _ [(u "pmid"%string, find_pmid_fix); (u "pmcid"%string, find_pmcid)] _ _ _ K2 eq_refl) in E7; [|intros g [Q|[]]; discriminate|exact E6]. clear E6.
  split; [eapply type_safe; [exact K3|exact R5| |exact E7]; now left|]. intros e8 E8. apply (type_inv _ _ [(u "pmcid"%string, find_pmcid)] _ _ _ K3 eq_refl) in E8; [|intros g []|exact E7]. clear E7. apply no_comment_TT in E8.
  split; [now right|]. intros e9 E9. apply (plain_add _ _ _ _ _ _ (range_finding _ R3) E8) in E9.
  split; [now right|]. intros e10 E10. apply (plain_add _ _ _ _ _ _ (range_finding _ R5) E9) in E10.
  split; [exact I|]. intros e11 E11. apply (plain_add _ _ _ _ _ _ (range_finding _ R1) E10) in E11.
  split; [exact I|]. intros e12 E12. apply (plain_add _ _ _ _ _ _ (range_finding _ R2) E11) in E12.
  split; [exact E12|]. intros e13 _. split; [exact I|]. auto.
Qed.
(** The text of such a reference always stays. *)
Theorem C68_simple ref ref' : simple_reference ref -> fix_reference ref = Ok ref' -> content ref' = content ref.
Proof. intros Hs. now apply C68_partial, simple_safe. Qed.

(* ---------------------------------------------------------------- *)
(** ** C69: errors *)
Lemma at_node_err act k e x : at_node act k e = Err x -> exists prev c, has_mark k c = true /\ act prev c = Err x.
Proof.
  induction e as [m nm a tx kids t IH|t] using node_ind'; [|discriminate]. rewrite at_node_eq. destruct (at_kids act k tx kids) as [[[[? ?] ?]|]|y] eqn:E; cbn [bind]; [discriminate|discriminate|]. intros [= <-].
  clear m nm a t. revert tx E. induction kids as [|c kids IHk]; intros tx E; [discriminate|]. inversion IH as [|? ? I1 I2]; subst. cbn [at_kids] in E. destruct (has_mark k c) eqn:Em.
  - destruct (act tx c) as [[[? ?] ?]|y'] eqn:Ea; cbn [bind] in E; [discriminate|]. injection E as <-. eauto.
  - destruct (at_node act k c) as [[[? ?]|]|y'] eqn:Ec; cbn [bind] in E; [discriminate| |injection E as <-; now apply I1].
    fold (at_kids act k) in E. destruct (at_kids act k (ntail c) kids) as [[[[? ?] ?]|]|y'] eqn:Ek; cbn [bind] in E; [discriminate|discriminate|]. injection E as <-. eapply IHk; eauto.
Qed.
Lemma each_err p act e x : each p act e = Err x -> exists prev c, act prev c = Err x.
Proof.
  unfold each. destruct (label p 0 e) as [n e1]. destruct (loop act 0 n e1) as [e2|y] eqn:E; cbn [bind]; [discriminate|]. intros [= <-]. revert E. generalize 0 as k. revert e1. induction n as [|n IH]; intros e1 k; cbn [loop]; [discriminate|].
  destruct (at_node act k e1) as [[[e' [|]]|]|y'] eqn:Ea; cbn [bind]; [discriminate|apply IH|apply IH|]. intros [= <-]. apply at_node_err in Ea as (prev & c & _ & Ea). eauto.
Qed.
Definition total {A B} (f : A -> res B) : Prop := forall a, exists b, f a = Ok b.
Lemma first_kid_total sel f l : total f -> exists r, first_kid sel f l = Ok r.
Proof.
  intros Hf. induction l as [|c l [r IH]]; cbn [first_kid]; [eauto|]. rewrite IH. cbn [bind]. destruct (Hf c) as [fc E]. destruct (sel c); [rewrite E|]; cbn [bind]; [destruct fc|]; eauto.
Qed.
Lemma annotate_total find create parse prev c : total find -> exists r, annotate find create parse prev c = Ok r.
Proof.
  intros Hf. assert (T : total (annotate_text find create)).
  { intros [m nm a [[|y text]|] kids t|]; cbn [annotate_text]; eauto. destruct (Hf (y :: text)) as [[[i j]|] ->]; cbn; eauto. }
  assert (T1 : total (annotate_tail find create)).
  { intros d. unfold annotate_tail. destruct (ntail d) as [[|y text]|]; eauto. destruct (Hf (y :: text)) as [[[i j]|] ->]; cbn; eauto. }
  assert (T2 : total (annotate_comment find create)).
  { intros [m nm a [[|y text]|] kids t|]; cbn [annotate_comment]; eauto. destruct (Hf (y :: text)) as [[[i j]|] ->]; cbn; eauto. }
  unfold annotate. destruct (T c) as [[e'|] ->]; cbn [bind]; [eauto|]. destruct c as [m nm a x kids t|]; [|eauto].
  destruct (first_kid_total is_element _ kids T1) as [[kids'|] ->]; cbn [bind]; [eauto|]. destruct parse; [|eauto]. destruct (first_kid_total (named "comment") _ kids T2) as [[kids'|] ->]; cbn [bind]; eauto.
Qed.
Lemma change_total find prev c : total find -> exists r, change_annotation find prev c = Ok r.
Proof. intros Hf. destruct c as [m nm a [text|] kids t|]; cbn [change_annotation]; eauto. destruct (Hf text) as [[[i j]|] ->]; cbn; eauto. Qed.
Lemma each_total p act e : (forall prev c, exists r, act prev c = Ok r) -> exists e', each p act e = Ok e'.
Proof. intros H. destruct (each p act e) as [e'|x] eqn:E; [eauto|]. apply each_err in E as (prev & c & E). destruct (H prev c) as [r Er]. congruence. Qed.
Lemma doi_total : total find_doi.
Proof. intros t. destruct (C49_doi sp wd dg token_at nopunct nopunct_space Hclasses t) as (r & Er & _). eauto. Qed.
Lemma finding_total f : total (finding f).
Proof. intros t. unfold finding. eauto. Qed.
Lemma split_total prev c : exists r, split_link sp prev c = Ok r.
Proof.
  destruct c as [m nm a [[|y text]|] kids t|]; cbn [split_link]; eauto. destruct (dict_get HREF a) as [[|z href]|]; eauto. destruct (negb _ && negb _); eauto.
  destruct (split_url (y :: text)) as [|h [|h2 others]]; eauto.
Qed.
Lemma href_total prev c : exists r, cut_href repeated_doi prev c = Ok r.
Proof.
  destruct c as [m nm a x kids t|]; cbn [cut_href]; eauto. destruct (dict_get HREF a) as [[|z href]|]; eauto. destruct (find_ext_link repeated_doi (z :: href)). eauto.
Qed.
Lemma lower_total prev c : exists r, lower_type lower prev c = Ok r.
Proof. destruct c as [m nm a x kids t|]; cbn [lower_type]; eauto. destruct (dict_get PUB_ID_TYPE a) as [[|z href]|]; eauto. destruct (mem _ _); eauto. Qed.
Lemma clean_total prev c : exists r, clean_title prev c = Ok r.
Proof. unfold clean_title. destruct (remove_quotes prev c). eauto. Qed.
Lemma add_total present find type parse e : total find -> exists e', add_if_not_present present find type parse e = Ok e'.
Proof. intros Hf. unfold add_if_not_present. destruct (any present e); [eauto|]. apply each_total. intros prev c. now apply annotate_total. Qed.
(** all steps but [replace_doi] *)
Lemma title_total e : exists e', fix_article_title sp dg e = Ok e'.
Proof.
  unfold fix_article_title. destruct (each_total article_title (change_annotation (find_title sp dg)) e) as [e1 ->]; [intros prev c; apply change_total; intros t; unfold find_title; eauto|].
  cbn [bind]. apply each_total, clean_total.
Qed.
Lemma link_total e : exists e', fix_ext_link sp repeated_doi e = Ok e'.
Proof.
  unfold fix_ext_link. destruct (each_total ext_link (split_link sp) e split_total) as [e1 ->]. cbn [bind].
  destruct (each_total ext_link (change_annotation find_link) e1) as [e2 ->]; [intros prev c; apply change_total; intros t; eauto|]. cbn [bind]. apply each_total, href_total.
Qed.
Notation fix_doi := (fix_doi sp wd dg token_at nopunct nopunct_space).
Notation replace_doi := (replace_doi sp find_doi_url_prefix).
Lemma doi_step e : exists e', fix_doi e = Ok e'.
Proof. apply each_total. intros prev c. apply change_total, doi_total. Qed.
Lemma rest_total e : exists e', foldM (fun e f => f e) e (skipn 4 steps) = Ok e'.
Proof.
  unfold ModelJats.steps. cbn [skipn foldM]. destruct (link_total e) as [e1 ->]. cbn [bind].
  do 3 (edestruct each_total as [? Q]; [|unfold fix_pii, fix_pmid, fix_pmcid; rewrite Q; cbn [bind]; clear Q]; [intros prev c; apply change_total, finding_total|]).
  do 4 (edestruct add_total as [? Q]; [|unfold add_pmid, add_pmcid, add_pii_valid, add_pii_other; rewrite Q; cbn [bind]; clear Q]; [apply finding_total|]).
  edestruct each_total as [? Q]; [|unfold add_wos, add_annotation; rewrite Q; cbn [bind]; clear Q]; [intros prev c; apply annotate_total, finding_total|].
  edestruct add_total as [? Q]; [|unfold add_doi; rewrite Q; cbn [bind]; clear Q]; [apply doi_total|]. eauto.
Qed.
(** The first three steps give a reference; the rest never raises; only the fourth step can. *)
Theorem C69_only ref : exists ref1, (do r <- convert_types lower ref ;; do r <- fix_article_title sp dg r ;; fix_doi r) = Ok ref1 /\
  match replace_doi ref1 with
  | Ok ref2 => exists ref', fix_reference ref = Ok ref'
  | Err x => fix_reference ref = Err x /\ (x = RuntimeError \/ x = TypeError)
  end.
Proof.
  destruct (each_total pub_id (lower_type lower) ref lower_total) as [r1 E1]. destruct (title_total r1) as [r2 E2]. destruct (doi_step r2) as [r3 E3].
  exists r3. split; [unfold convert_types; rewrite E1; cbn [bind]; rewrite E2; exact E3|]. unfold ModelJats.fix_reference.
  assert (Q : foldM (fun e f => f e) ref steps = do r <- replace_doi r3 ;; foldM (fun e f => f e) r (skipn 4 steps)).
  { unfold ModelJats.steps. cbn [foldM skipn]. unfold convert_types. rewrite E1. cbn [bind]. rewrite E2. cbn [bind]. rewrite E3. reflexivity. }
  rewrite Q. destruct (replace_doi r3) as [r4|x] eqn:E4; cbn [bind]; [apply rest_total|]. split; [reflexivity|].
  apply each_err in E4 as (prev & c & E4). unfold doi_to_link in E4. destruct prev as [before|]; [|injection E4 as <-; auto]. destruct (find_doi_url_prefix before) as [[i j]|]; [|discriminate].
  destruct c as [m nm a [d|] kids t|]; [discriminate|injection E4 as <-; auto|injection E4 as <-; auto].
Qed.
(** Without DOIs there is no error. *)
Definition ND (nm : str) (a : list (str * str)) (x : ostr) (leaf : bool) (t : ostr) : Prop := nm = u "pub-id"%string -> pub_type a <> Some (u "doi"%string).
Lemma any_below p e : below (fun c => p c = false) e -> any p e = false.
Proof.
  induction e as [m nm a x kids t IH|t] using node_ind'; [|reflexivity]. rewrite below_eq. cbn [any nkids]. intros H. induction kids as [|c kids IHk]; [reflexivity|]. inversion H as [|? ? [H1 H2] H3]; subst. inversion IH as [|? ? I1 I2]; subst.
  cbn [existsb]. rewrite H1, (I1 H2). cbn. now apply IHk.
Qed.
Lemma label_none p e : forall n, any p e = false -> fst (label p n e) = n.
Proof.
  induction e as [m nm a x kids t IH|t] using node_ind'; intros n H; [|reflexivity]. rewrite label_eq. cbn [any] in H.
  enough (K : forall n, fst (label_kids p n kids) = n) by (specialize (K n); destruct (label_kids p n kids); exact K). clear n. induction kids as [|c kids IHk]; intros n; [reflexivity|].
  inversion IH as [|? ? I1 I2]; subst. cbn [existsb] in H. apply orb_false_iff in H as [H H3]. apply orb_false_iff in H as [Hp Ha]. cbn [label_kids]. rewrite Hp. specialize (I1 n Ha). destruct (label p n c) as [n2 c']. cbn [fst] in I1. subst n2.
  fold (label_kids p). specialize (IHk I2 H3 n). destruct (label_kids p n kids). exact IHk.
Qed.
Theorem C69_no_doi ref : below (TN ND) ref -> exists ref', fix_reference ref = Ok ref'.
Proof.
  intros H. destruct (C69_only ref) as (ref1 & E & K).
  destruct (convert_types lower ref) as [r1|] eqn:E1; [|discriminate]. cbn [bind] in E. destruct (fix_article_title sp dg r1) as [r2|] eqn:E2; [|discriminate]. cbn [bind] in E.
  assert (Gen : forall p act e e', by_name p -> (forall prev m nm a x kids t p' l b, act prev (El m nm a x kids t) = Ok (p', l, b) ->
      Forall (fun d => exists a' x' kids' t', d = El m nm a' x' kids' t' /\ pub_type a' = pub_type a /\ p d = p (El m nm a x kids t) /\ (below (TP p ND) (El m nm a x kids t) -> below (TP p ND) d)) l) ->
      below (TN ND) e -> each p act e = Ok e' -> below (TN ND) e').
  { intros p act e e' Hp Ha. apply (each_inv p act Hp ND); [auto|auto|]. intros prev c p' l b Hpc [Z1 Z2] Hb Ea. destruct c as [m nm a x kids t|]; [|destruct Hp as [_ Hp]; rewrite Hp in Hpc; discriminate].
    eapply Forall_impl; [|exact (Ha _ _ _ _ _ _ _ _ _ _ Ea)]. cbv beta. intros d (a' & x' & kids' & t' & -> & P1 & P2 & P3). split; [|auto]. split; [|intros _; now rewrite P2]. intros Hn. rewrite P1. now apply Z1. }
  assert (H1 : below (TN ND) r1).
  { revert E1. apply Gen; [apply named_by_name| |exact H]. intros prev m nm a x kids t p' l b. 
    assert (Same : Ok (prev, [El m nm a x kids t], false) = Ok (p', l, b) -> Forall (fun d => exists a' x' kids' t', d = El m nm a' x' kids' t' /\ pub_type a' = pub_type a /\ pub_id d = pub_id (El m nm a x kids t) /\ (below (TP pub_id ND) (El m nm a x kids t) -> below (TP pub_id ND) d)) l).
    { intros [= <- <- <-]. constructor; [|constructor]. exists a, x, kids, t. auto. }
    cbn [lower_type]. destruct (dict_get PUB_ID_TYPE a) as [[|c ty]|] eqn:Et; [exact Same| |exact Same].
    destruct (mem (lower (c :: ty)) KNOWN_PUB_ID_TYPES) eqn:Em; [|exact Same]. intros [= <- <- <-]. constructor; [|constructor]. do 4 eexists. split; [reflexivity|]. split; [|split; [reflexivity|auto]].
    apply mem_In in Em. rewrite (pub_type_known _ (lower (c :: ty)) Em) by apply dict_get_set_same. unfold pub_type. rewrite Et. apply mem_In in Em. now rewrite Em. }
  assert (Chg : forall p find, by_name p -> forall prev m nm a x kids t p' l b, change_annotation find prev (El m nm a x kids t) = Ok (p', l, b) ->
      Forall (fun d => exists a' x' kids' t', d = El m nm a' x' kids' t' /\ pub_type a' = pub_type a /\ p d = p (El m nm a x kids t) /\ (below (TP p ND) (El m nm a x kids t) -> below (TP p ND) d)) l).
  { intros p find [Hp _] prev m nm a x kids t p' l b. cbn [change_annotation]. destruct x as [text|]; [|intros [= <- <- <-]; constructor; [|constructor]; exists a, None, kids, t; auto].
    destruct (find text) as [[[i j]|]|]; cbn [bind]; [|intros [= <- <- <-]; constructor|discriminate]. intros [= <- <- <-]. constructor; [|constructor]. do 4 eexists. split; [reflexivity|]. split; [reflexivity|]. split; [now rewrite Hp, <- (Hp m nm a (Some text) kids t)|auto]. }
  assert (H2 : below (TN ND) r2).
  { unfold fix_article_title in E2. destruct (each article_title (change_annotation (find_title sp dg)) r1) as [r11|] eqn:E11; [|discriminate]. cbn [bind] in E2.
    revert E2. apply Gen; [apply named_by_name| |revert E11; apply Gen; [apply named_by_name|apply Chg, named_by_name|exact H1]].
    intros prev m nm a x kids t p' l b Ea. unfold clean_title in Ea. destruct (remove_quotes prev (El m nm a x kids t)) as [pp e1] eqn:Eq. injection Ea as <- <- <-. constructor; [|constructor].
    assert (Cut : forall f ks ks' s, cut_last f ks = (ks', s) -> Forall (fun d => TP article_title ND d /\ below (TP article_title ND) d) ks -> Forall (fun d => TP article_title ND d /\ below (TP article_title ND) d) ks').
    { clear. intros f ks. induction ks as [|c ks IHk]; intros ks' s; cbn [cut_last]; [intros [= <- <-]; auto|]. destruct ks as [|c2 ks].
      - destruct (ntail c) as [[|z t]|]; intros [= <- <-]; auto. intros Hf. inversion Hf as [|? ? [F1 F2] _]; subst. constructor; [|constructor]. rewrite below_set_tail. split; [|exact F2]. destruct c; exact F1.
      - destruct (cut_last f (c2 :: ks)) as [l'' s''] eqn:E. intros [= <- <-] Hf. inversion Hf as [|? ? F1 F2]; subst. constructor; [exact F1|]. eapply IHk; eauto. }
    assert (Q : exists x' kids' t', e1 = El m nm a x' kids' t' /\ (below (TP article_title ND) (El m nm a x kids t) -> below (TP article_title ND) e1)).
    { cbn [remove_quotes] in Eq. destruct (content (El m nm a x kids t)) as [|c [|c2 rest]]; [injection Eq as <- <-; eauto|injection Eq as <- <-; eauto|]. destruct (match x with Some (c0 :: x') => (add_text_to_previous prev [c0], Some x') | _ => (prev, x) end) as [px xx].
      destruct (has_quotes _ _ _).
      - destruct (truthy (last_tail kids)); [|injection Eq as <- <-; eauto]. destruct (cut_last _ kids) as [kids' s] eqn:Ec. injection Eq as <- <-. do 3 eexists. split; [reflexivity|]. rewrite !below_eq. cbn [nkids]. eapply Cut. exact Ec.
      - destruct (right_quote c); [|injection Eq as <- <-; eauto]. destruct (existsb _ _); injection Eq as <- <-; eauto. }
    destruct Q as (x' & kids' & t' & -> & Q). cbn [remove_comma]. destruct (_ =? 0); [do 4 eexists; split; [reflexivity|]; auto|]. destruct (truthy (last_tail kids')); [|do 4 eexists; split; [reflexivity|]; auto].
    destruct (cut_last _ kids') as [kids2 s] eqn:Ec. do 4 eexists. split; [reflexivity|]. split; [reflexivity|]. split; [reflexivity|]. intros Hb. specialize (Q Hb). rewrite below_eq in *. cbn [nkids] in *. eapply Cut; eauto. }
  assert (H3 : below (TN ND) ref1) by (revert E; apply Gen; [apply type_by_name|apply Chg, type_by_name|exact H2]).
  assert (R : replace_doi ref1 = Ok (unmark (snd (label (pub_id_of "doi") 0 ref1)))).
  { unfold ModelJats.replace_doi, each. assert (A : any (pub_id_of "doi") ref1 = false).
    { apply any_below. eapply below_imp; [|exact H3]. intros c Hc. destruct c as [m nm a x kids t|]; [|reflexivity]. destruct (pub_id_of "doi" (El m nm a x kids t)) eqn:Ed; [|reflexivity].
      apply type_of_pub in Ed as [N1 N2]. elim (Hc N1). apply pub_type_known; [cbn; tauto|exact N2]. }
    pose proof (label_none _ _ 0 A) as L. destruct (label (pub_id_of "doi") 0 ref1) as [n e1]. cbn [fst snd] in *. subst n. reflexivity. }
  rewrite R in K. exact K.
Qed.
End Reference.

(* ---------------------------------------------------------------- *)
(** ** The document: only the references change *)
Section Document.
Variables sp wd dg : N -> bool.
Variable token_at : str -> bool.
Variables nopunct nopunct_space : str -> str.
Variables find_pii_valid find_pii_other find_pmid find_pmid_fix find_pmcid find_wos find_doi_url_prefix : str -> option (nat * nat).
Variable repeated_doi : str -> option nat.
Variable lower : str -> str.
Notation fix_reference := (fix_reference sp wd dg token_at nopunct nopunct_space find_pii_valid find_pii_other find_pmid find_pmid_fix find_pmcid find_wos find_doi_url_prefix repeated_doi lower).
Notation fix_element := (fix_element sp wd dg token_at nopunct nopunct_space find_pii_valid find_pii_other find_pmid find_pmid_fix find_pmcid find_wos find_doi_url_prefix repeated_doi lower).
Notation fix_jats_xml_node := (fix_jats_xml_node sp wd dg token_at nopunct nopunct_space find_pii_valid find_pii_other find_pmid find_pmid_fix find_pmcid find_wos find_doi_url_prefix repeated_doi lower).

(** the name, the attributes and what follows *)
Definition same_head (e e' : node) : Prop :=
  match e, e' with El _ nm a _ _ t, El _ nm' a' _ _ t' => nm' = nm /\ a' = a /\ t' = t | Mi t, Mi t' => t' = t | _, _ => False end.
Lemma same_head_refl e : same_head e e.
Proof. destruct e; cbn; auto. Qed.
Lemma same_head_trans e e' e'' : same_head e e' -> same_head e' e'' -> same_head e e''.
Proof. destruct e, e', e''; cbn; try tauto; [intros (-> & -> & ->) (-> & -> & ->); auto|congruence]. Qed.
Lemma each_head p act e e' : each p act e = Ok e' -> same_head e e'.
Proof.
  unfold each. assert (L : same_head e (snd (label p 0 e))) by (destruct e as [m nm a x kids t|t]; [rewrite label_eq; destruct (label_kids p 0 kids)|]; cbn; auto).
  destruct (label p 0 e) as [n e1]. cbn [snd] in L. destruct (loop act 0 n e1) as [e2|] eqn:E; [|discriminate]. cbn. intros [= <-].
  assert (H : same_head e1 e2).
  { revert E. generalize 0 as k. clear L. revert e1. induction n as [|n IH]; intros e1 k; cbn [loop]; [intros [= <-]; apply same_head_refl|].
    destruct (at_node act k e1) as [[[e3 stop]|]|] eqn:Ea; cbn [bind]; [| |discriminate]; [|apply IH].
    assert (same_head e1 e3) by (apply at_node_inv in Ea as (m & nm & a & x & kids & t & x' & kids' & -> & -> & _); cbn; auto).
    destruct stop; [now intros [= <-]|]. intros E. apply IH in E. eapply same_head_trans; eauto. }
  eapply same_head_trans; [exact L|]. eapply same_head_trans; [exact H|]. destruct e2; cbn; auto.
Qed.
Lemma fix_reference_head ref ref' : fix_reference ref = Ok ref' -> same_head ref ref'.
Proof.
  unfold ModelJats.fix_reference. assert (A : Forall (fun f => forall e e', f e = Ok e' -> same_head e e') (steps sp wd dg token_at nopunct nopunct_space find_pii_valid find_pii_other find_pmid find_pmid_fix find_pmcid find_wos find_doi_url_prefix repeated_doi lower)).
  { unfold steps. repeat constructor; intros e e'; try apply each_head.
    - unfold fix_article_title. destruct (each _ _ e) as [e1|] eqn:E1; [|discriminate]. cbn [bind]. intros E2. apply each_head in E1, E2. eapply same_head_trans; eauto.
    - unfold fix_ext_link. destruct (each _ _ e) as [e1|] eqn:E1; [|discriminate]. cbn [bind]. destruct (each _ _ e1) as [e2|] eqn:E2; [|discriminate]. cbn [bind]. intros E3. apply each_head in E1, E2, E3.
      eapply same_head_trans; [exact E1|]. eapply same_head_trans; eauto.
    - unfold add_pmid, add_if_not_present. destruct (any _ e); [intros [= <-]; apply same_head_refl|apply each_head].
    - unfold add_pmcid, add_if_not_present. destruct (any _ e); [intros [= <-]; apply same_head_refl|apply each_head].
    - unfold add_pii_valid, add_if_not_present. destruct (any _ e); [intros [= <-]; apply same_head_refl|apply each_head].
    - unfold add_pii_other, add_if_not_present. destruct (any _ e); [intros [= <-]; apply same_head_refl|apply each_head].
    - unfold add_doi, add_if_not_present. destruct (any _ e); [intros [= <-]; apply same_head_refl|apply each_head]. }
  revert ref. induction A as [|f fs H1 H2 IH]; intros ref; cbn [foldM]; [intros [= <-]; apply same_head_refl|]. destruct (f ref) as [e1|] eqn:E; [|discriminate]. cbn [bind]. intros E'.
  eapply same_head_trans; [eapply H1; exact E|now apply IH].
Qed.
(** the same trees but for the references, which are fixed *)
Inductive refs_fixed : bool -> bool -> node -> node -> Prop :=
| fixed_mi ib ir t : refs_fixed ib ir (Mi t) (Mi t)
| fixed_ref ib m nm a x kids t e' : nm = u "ref"%string -> fix_reference (El m nm a x kids t) = Ok e' -> refs_fixed ib true (El m nm a x kids t) e'
| fixed_el ib ir m nm a x kids kids' t : ir = false \/ nm <> u "ref"%string ->
    Forall2 (refs_fixed (streq nm (u "back")) (ib && streq nm (u "ref-list"))) kids kids' -> refs_fixed ib ir (El m nm a x kids t) (El m nm a x kids' t).
Definition fix_kids ib ir := fix go (l : list node) : res (list node) :=
  match l with [] => Ok [] | c :: l' => do c' <- fix_element ib ir c ;; do l'' <- go l' ;; Ok (c' :: l'') end.
Lemma fix_kids_all ib ir kids kids' : Forall (fun c => forall ib ir c', fix_element ib ir c = Ok c' -> refs_fixed ib ir c c') kids ->
  fix_kids ib ir kids = Ok kids' -> Forall2 (refs_fixed ib ir) kids kids'.
Proof.
  intros H. revert kids'. induction H as [|c kids H1 H2 IH]; intros kids'; cbn [fix_kids]; [intros [= <-]; constructor|]. destruct (fix_element ib ir c) as [c'|] eqn:E; [|discriminate]. cbn [bind]. fold (fix_kids ib ir).
  destruct (fix_kids ib ir kids) as [l''|]; [|discriminate]. cbn. intros [= <-]. constructor; [now apply H1|now apply IH].
Qed.
Lemma fix_element_fixed e : forall ib ir e', fix_element ib ir e = Ok e' -> refs_fixed ib ir e e'.
Proof.
  induction e as [m nm a x kids t IH|t] using node_ind'; intros ib ir e'; cbn [ModelJats.fix_element]; [|intros [= <-]; constructor].
  destruct (ir && streq nm (u "ref")) eqn:Er.
  - apply andb_true_iff in Er as [-> Er]. apply streq_true in Er. intros E. now constructor.
  - change (bind (fix_kids (streq nm (u "back")) (ib && streq nm (u "ref-list")) kids) (fun kids' => Ok (El m nm a x kids' t)) = Ok e' -> refs_fixed ib ir (El m nm a x kids t) e').
    destruct (fix_kids _ _ kids) as [kids'|] eqn:E; [|discriminate]. cbn. intros [= <-]. apply fixed_el; [|now apply fix_kids_all].
    apply andb_false_iff in Er as [->|Er]; [now left|]. right. now apply streq_false.
Qed.
(** Everything outside the references is as before. *)
Theorem C70_outside m nm a x kids t root' : fix_jats_xml_node (El m nm a x kids t) = Ok root' ->
  exists kids', root' = El m nm a x kids' t /\ Forall2 (refs_fixed false false) kids kids'.
Proof.
  cbn [ModelJats.fix_jats_xml_node]. change (bind (fix_kids false false kids) (fun kids' => Ok (El m nm a x kids' t)) = Ok root' -> exists kids', root' = El m nm a x kids' t /\ Forall2 (refs_fixed false false) kids kids').
  destruct (fix_kids false false kids) as [kids'|] eqn:E; [|discriminate]. cbn. intros [= <-]. exists kids'. split; [reflexivity|]. eapply fix_kids_all; [|exact E]. apply Forall_forall. intros c _. apply fix_element_fixed.
Qed.
(** The references of the new document are those of the old one, fixed, in the same order. *)
Definition fixed_pair (r r' : node) : Prop := fix_reference r = Ok r'.
Lemma refs_fixed_refs e : forall e' ib ir, refs_fixed ib ir e e' -> Forall2 fixed_pair (refs_below ib ir e) (refs_below ib ir e').
Proof.
  induction e as [m nm a x kids t IH|t] using node_ind'; intros e' ib ir H; inversion H; subst; [| |constructor].
  - cbn [refs_below andb]. rewrite streq_refl. match goal with H : fix_reference _ = Ok _ |- _ => pose proof (fix_reference_head _ _ H) as Hh; rename H into Hf end. destruct e' as [m' nm' a' x' kids' t'|]; [|contradiction]. destruct Hh as (-> & _). 
    cbn [refs_below]. rewrite streq_refl. constructor; [exact Hf|constructor].
  - cbn [refs_below]. assert (Er : ir && streq nm (u "ref") = false) by (match goal with H : _ \/ _ |- _ => destruct H as [->|H]; [reflexivity|apply streq_false in H; rewrite H; apply andb_false_r] end). rewrite Er.
    match goal with H : Forall2 _ kids kids' |- _ => rename H into Hk end. clear Er H. revert kids' Hk. induction kids as [|c kids IHk]; intros kids' Hk; inversion Hk; subst; [constructor|]. inversion IH; subst. cbn [flat_map]. apply Forall2_app; auto.
Qed.
Theorem C70_references root root' : fix_jats_xml_node root = Ok root' -> Forall2 fixed_pair (refs root) (refs root').
Proof.
  destruct root as [m nm a x kids t|t]; [|intros [= <-]; constructor]. intros E. apply C70_outside in E as (kids' & -> & H). cbn [refs]. induction H; [constructor|]. cbn [flat_map]. apply Forall2_app; [now apply refs_fixed_refs|assumption].
Qed.
(** So the check of the numbers of references never fails and the meta data name exactly the
    references that are not written as before. *)
Lemma Forall2_len {A B} (P : A -> B -> Prop) l l' : Forall2 P l l' -> length l = length l'.
Proof. induction 1; cbn; congruence. Qed.
Theorem C70_changed tostring root root' : fix_jats_xml_node root = Ok root' -> exists changed, changed_references tostring root' root = Ok changed /\
  forall r, In r changed <-> exists i r', nth_error (refs root) i = Some r /\ nth_error (refs root') i = Some r' /\ fix_reference r = Ok r' /\ tostring r' <> tostring r.
Proof.
  intros E. apply C70_references in E. unfold changed_references. rewrite (Forall2_len _ _ _ E), Nat.eqb_refl. eexists. split; [reflexivity|]. intros r.
  induction E as [|r0 r0' l l' H1 H2 IH]; cbn [combine filter map].
  - split; [intros []|]. intros ([|i] & r' & Q & _); discriminate.
  - cbn [fst snd]. destruct (streq (tostring r0') (tostring r0)) eqn:Es; cbn [negb map].
    + rewrite IH. split.
      * intros (i & r' & Q). exists (S i), r'. exact Q.
      * intros ([|i] & r' & Q1 & Q2 & Q3 & Q4); [|exists i, r'; auto]. cbn in Q1, Q2. injection Q1 as ->. injection Q2 as ->. apply streq_true in Es. contradiction.
    + cbn [In snd]. rewrite IH. split.
      * intros [->|(i & r' & Q)]; [|exists (S i), r'; exact Q]. exists 0, r0'. cbn. apply streq_false in Es. auto.
      * intros ([|i] & r' & Q1 & Q2 & Q3 & Q4); [left; now injection Q1|]. right. exists i, r'. auto.
Qed.
(** If the references keep their text so does the document. *)
Theorem C70_content root root' : fix_jats_xml_node root = Ok root' -> (forall r r', In r (refs root) -> fix_reference r = Ok r' -> content r' = content r) -> content root' = content root.
Proof.
  assert (K : forall e e' ib ir, refs_fixed ib ir e e' -> (forall r r', In r (refs_below ib ir e) -> fix_reference r = Ok r' -> content r' = content r) -> content e' = content e /\ ntail e' = ntail e).
  { induction e as [m nm a x kids t IH|t] using node_ind'; intros e' ib ir H Hr; inversion H; subst; [| |auto].
    - match goal with H : fix_reference _ = Ok _ |- _ => rename H into Hf end. split; [apply Hr; [cbn; now left|exact Hf]|]. apply fix_reference_head in Hf. destruct e'; [now destruct Hf as (_ & _ & ->)|contradiction].
    - split; [|reflexivity]. rewrite !content_eq. f_equal. cbn [refs_below] in Hr. assert (Er : ir && streq nm (u "ref") = false) by (match goal with H : _ \/ _ |- _ => destruct H as [->|H]; [reflexivity|apply streq_false in H; rewrite H; apply andb_false_r] end). rewrite Er in Hr.
      match goal with H : Forall2 _ kids kids' |- _ => rename H into Hk end. clear Er H. revert kids' Hk. induction kids as [|c kids IHk]; intros kids' Hk; inversion Hk; subst; [reflexivity|]. inversion IH; subst. rewrite !flow_cons. cbn [flat_map] in Hr.
      match goal with H : refs_fixed _ _ c ?c', Hc : forall e', _ |- _ => destruct (Hc _ _ _ H) as [-> ->]; [intros r r' Q; apply Hr; apply in_or_app; auto|] end. f_equal. apply IHk; auto. intros r r' Q. apply Hr. apply in_or_app. auto. }
  destruct root as [m nm a x kids t|t]; [|now intros [= <-]]. intros E Hr. apply C70_outside in E as (kids' & -> & H). rewrite !content_eq. f_equal. cbn [refs] in Hr. induction H as [|c c' l l' H1 H2 IH]; [reflexivity|]. cbn [flat_map] in Hr.
  destruct (K _ _ _ _ H1) as [Q1 Q2]; [intros r r' Q; apply Hr; apply in_or_app; auto|]. rewrite !flow_cons, Q1, Q2. f_equal. apply IH. intros r r' Q. apply Hr. apply in_or_app. auto.
Qed.
End Document.
(** The meta data are new elements: the other elements stay as they are. *)
Theorem C70_meta data m nm a x kids t : data <> [] -> exists before group after, 
  add_meta data (El m nm a x kids t) = El m nm a x (before ++ group :: after) t /\ named "custom-meta-group" group = true /\
  ((kids = before ++ after /\ before = [] /\ nkids group = map meta_element data) \/
   exists old, kids = before ++ old :: after /\ named "custom-meta-group" old = true /\ existsb (named "custom-meta-group") before = false /\ same_head old group /\ nkids group = nkids old ++ map meta_element data).
Proof.
  intros Hd. destruct data as [|d data]; [congruence|]. cbn [add_meta]. set (new := map meta_element (d :: data)).
  assert (A : forall l, match append_to_group new l with
     | None => existsb (named "custom-meta-group") l = false
     | Some l' => exists before old group after, l = before ++ old :: after /\ l' = before ++ group :: after /\ named "custom-meta-group" old = true /\ named "custom-meta-group" group = true /\ existsb (named "custom-meta-group") before = false /\ same_head old group /\ nkids group = nkids old ++ new end).
  { induction l as [|c l IH]; cbn [append_to_group existsb]; [reflexivity|]. destruct (named "custom-meta-group" c) eqn:E.
    - destruct c as [m' nm' a' x' ks t'|]; [|discriminate]. exists [], (El m' nm' a' x' ks t'), (El m' nm' a' x' (ks ++ new) t'), l. cbn. auto 10.
    - destruct (append_to_group new l) as [l'|]; cbn [option_map]; [|exact IH]. destruct IH as (before & old & group & after & -> & -> & Q1 & Q2 & Q3 & Q4). exists (c :: before), old, group, after. cbn [existsb app]. rewrite E, Q3. auto 10. }
  specialize (A kids). destruct (append_to_group new kids) as [kids'|].
  - destruct A as (before & old & group & after & E1 & -> & Q1 & Q2 & Q3 & Q4 & Q5). exists before, group, after. split; [reflexivity|]. split; [exact Q2|]. right. exists old. auto 10.
  - eexists [], _, kids. split; [reflexivity|]. split; [reflexivity|]. left. auto.
Qed.

(* ---------------------------------------------------------------- *)
(** ** Examples *)
Open Scope string_scope.
(** what follows a prefix *)
Fixpoint span_len (p : N -> bool) (s : str) : nat := match s with c :: s' => if p c then S (span_len p s') else 0 | [] => 0 end.
Fixpoint after_prefix (pre : str) (p : N -> bool) (k : nat) (s : str) : option (nat * nat) :=
  if starts_with pre s then let i := k + length pre in Some (i, i + span_len p (skipn (length pre) s))
  else match s with [] => None | _ :: s' => after_prefix pre p (S k) s' end.
Lemma after_prefix_range pre p : range (after_prefix pre p 0).
Proof. intros t. generalize 0. induction t as [|c t IH]; intros k i j; cbn [after_prefix]; destruct (starts_with pre _); try discriminate; try (intros [= <- <-]; lia). apply IH. Qed.
Definition ex_pmid : str -> option (nat * nat) := after_prefix (u "PMID:") ascii_digit 0.
Definition ex_pmid_fix : str -> option (nat * nat) := after_prefix (u "PMID ") ascii_digit 0.
Definition ex_pmcid : str -> option (nat * nat) := after_prefix (u "PMCID:") ascii_word 0.
Definition ex_pii : str -> option (nat * nat) := after_prefix (u "PII:") ascii_word 0.
Definition ex_wos : str -> option (nat * nat) := after_prefix (u "WOS:") ascii_digit 0.
Fixpoint ex_prefix_at (k : nat) (s : str) : option (nat * nat) :=
  if streq s (u "doi.org/") then Some (k, k + 8) else match s with [] => None | _ :: s' => ex_prefix_at (S k) s' end.
Definition ex_prefix : str -> option (nat * nat) := ex_prefix_at 0.
Definition ex_lower (s : str) : str := map (fun c => if ascii_upper c then (c + 32)%N else c) s.
Definition ex_fix : node -> res node := ModelJats.fix_reference ascii_space ascii_word ascii_digit ex_token ex_nopunct ex_nopunct ex_pii ex_pii ex_pmid ex_pmid_fix ex_pmcid ex_wos ex_prefix (fun _ => None) ex_lower.
Definition el (nm : string) (a : list (str * str)) (x : string) (kids : list node) (t : string) : node := El None (u nm) a (Some (u x)) kids (Some (u t)).
Definition ex_type (ty : string) : list (str * str) := [(PUB_ID_TYPE, u ty)].
Definition cit (x : string) (kids : list node) : node := El None (u "ref") [] None [El None (u "mixed-citation") [] (Some (u x)) kids None] None.
Definition text_of (r : res node) : res str := do e <- r ;; Ok (content e).

Example ex_pmid_range : in_range (finding ex_pmid).
Proof. intros t i j [= H]. revert H. apply after_prefix_range. Qed.
Example ex_C47_text : annotate_text (finding ex_pmid) (new_pub_id "pmid") (el "mixed-citation" [] "A. PMID:123." [el "year" [] "1999" [] ""] "") =
  Ok (Some (el "mixed-citation" [] "A. PMID:" [El None (u "pub-id") (ex_type "pmid") (Some (u "123")) [] (Some (u ".")); el "year" [] "1999" [] ""] "")).
Proof. vm_compute. reflexivity. Qed.
Example ex_C47_tail : annotate_tail (finding ex_pmid) (new_pub_id "pmid") (el "year" [] "1999" [] ", PMID:123.") =
  Ok (Some [el "year" [] "1999" [] ", PMID:"; El None (u "pub-id") (ex_type "pmid") (Some (u "123")) [] (Some (u "."))]).
Proof. vm_compute. reflexivity. Qed.
Example ex_C47_reference : add_annotation (finding ex_pmid) (new_pub_id "pmid") true (cit "A" [el "comment" [] "see PMID:77" [] ""]) <> Ok (cit "A" [el "comment" [] "see PMID:77" [] ""]) /\
  text_of (add_annotation (finding ex_pmid) (new_pub_id "pmid") true (cit "A" [el "comment" [] "see PMID:77" [] ""])) = Ok (u "Asee PMID:77").
Proof. vm_compute. split; [congruence|reflexivity]. Qed.
(** Text behind a comment: the annotation goes behind this text. *)
Theorem C47_comment_refuted : exists find ref ref', in_range find /\ add_annotation find (new_pub_id "pmid") true ref = Ok ref' /\
  content ref = u "Asee PMID:77; 1999" /\ content ref' = u "Asee PMID:; 199977".
Proof.
  exists (finding ex_pmid), (cit "A" [el "comment" [] "see PMID:77" [] "; 1999"]). eexists. split; [exact ex_pmid_range|]. split; [vm_compute; reflexivity|]. vm_compute. auto.
Qed.
Example ex_C48_found : change_annotation (finding ex_pmid) (Some (u "see ")) (el "pub-id" (ex_type "pmid") "PMID:77." [] " etc") =
  Ok (Some (u "see PMID:"), [el "pub-id" (ex_type "pmid") "77" [] ". etc"], false).
Proof. vm_compute. reflexivity. Qed.
(** Nothing found: the text behind the element is lost. *)
Theorem C48_tail_refuted : exists find ref ref', in_range find /\ each (pub_id_of "pmid") (change_annotation find) ref = Ok ref' /\
  content ref = u "see unknown; 1999" /\ content ref' = u "see unknown".
Proof.
  exists (finding ex_pmid), (cit "see " [el "pub-id" (ex_type "pmid") "unknown" [] "; 1999"]). eexists. split; [exact ex_pmid_range|]. split; [vm_compute; reflexivity|]. vm_compute. auto.
Qed.
(** An element inside the title: what is cut off at the end of the text before it goes behind it. *)
Theorem C48_order_refuted : exists ref ref', fix_article_title ascii_space ascii_digit ref = Ok ref' /\
  content ref = u "1. On the role, of x" /\ content ref' = u "1. On the roleof x, ".
Proof.
  exists (cit "1. " [El None (u "article-title") [] (Some (u "On the role, ")) [El None (u "italic") [] (Some (u "of x")) [] None] None]). eexists.
  split; [vm_compute; reflexivity|]. vm_compute. auto.
Qed.
(** The same losses in a whole reference, and the order of split links. *)
Theorem C68_tail_refuted : exists ref ref', ex_fix ref = Ok ref' /\ content ref = u "see PMCID; 1999" /\ content ref' = u "see PMCID".
Proof. exists (cit "see " [el "pub-id" (ex_type "pmcid") "PMCID" [] "; 1999"]). eexists. split; [vm_compute; reflexivity|]. vm_compute. auto. Qed.
Definition ex_links : string := "http://a.orghttp://b.org".
Theorem C68_links_refuted : exists ref ref', ex_fix ref = Ok ref' /\ content ref = u ("see " ++ ex_links ++ "; 1999") /\ content ref' = u "see http://a.org; 1999http://b.org".
Proof. exists (cit "see " [el "ext-link" [(HREF, u ex_links)] ex_links [] "; 1999"]). eexists. split; [vm_compute; reflexivity|]. vm_compute. auto. Qed.
(** A DOI without text as the first element; the same behind the prefix of a link; two DOIs
    behind such a prefix with nothing in between. *)
Definition no_text (t : ostr) : node := El None (u "pub-id") (ex_type "doi") None [] t.
Theorem C69_first_refuted : exists ref, ex_fix ref = Err RuntimeError.
Proof. exists (El None (u "ref") [] None [El None (u "mixed-citation") [] None [no_text None] None] None). vm_compute. reflexivity. Qed.
Theorem C69_text_refuted : exists ref, ex_fix ref = Err TypeError.
Proof. exists (cit "see doi.org/" [no_text None]). vm_compute. reflexivity. Qed.
Definition ex_doi (d : string) (t : ostr) : node := El None (u "pub-id") (ex_type "doi") (Some (u d)) [] t.
Theorem C69_two_refuted : exists ref, below (fun c => named "pub-id" c = true -> content c <> []) ref /\ ex_fix ref = Err RuntimeError.
Proof.
  exists (cit "see doi.org/" [ex_doi "10.1234/ab" None; ex_doi "10.1234/cd" None]). split; [|vm_compute; reflexivity].
  cbn. repeat split; discriminate.
Qed.
Definition ex_ref : node := cit "1. Some One " [el "article-title" [] "A title, " [] "Journal "; el "year" [] "1999" [] "; "; el "pub-id" (ex_type "PMID") "PMID 12345; " [] "PII:S0"].
Example ex_simple : simple_reference ex_pii ex_pmid_fix ex_pmcid ex_lower ex_ref.
Proof. 
  unfold simple_reference, ex_ref, cit, el, ex_type. cbn [below TN null]. repeat split; try discriminate.
  - injection H0 as <-. discriminate.
  - injection H0 as <-. intros f K. cbn [In simple_types] in K. destruct K as [[= <-]|[[= <-]|[[= <-]|[]]]]; try discriminate.
Qed.
Example ex_C68 : ex_fix ex_ref = Ok (cit "1. Some One " [el "article-title" [] "A title" [] ", Journal "; el "year" [] "1999" [] "; PMID "; el "pub-id" (ex_type "pmid") "12345" [] "; PII:";
  El None (u "pub-id") (ex_type "pii") (Some (u "S0")) [] (Some [])]).
Proof. vm_compute. reflexivity. Qed.

Lemma ex_lower_known ty : In ty KNOWN_PUB_ID_TYPES -> ex_lower ty = ty.
Proof. cbn [In KNOWN_PUB_ID_TYPES]. intuition (subst; reflexivity). Qed.
Lemma ex_ranges : range ex_pii /\ range ex_pii /\ range ex_pmid /\ range ex_pmid_fix /\ range ex_pmcid /\ range ex_wos.
Proof. repeat split; apply after_prefix_range. Qed.
Example ex_C68_text ref' : ex_fix ex_ref = Ok ref' -> content ref' = content ex_ref.
Proof. apply C68_simple; [exact ascii_classes_ok|exact ex_ranges|exact ex_lower_known|exact ex_simple]. Qed.
(** a DOI that becomes a link, another link, a comment *)
Definition ex_ref2 : node :=
  cit "1. Some One, see doi.org/" [ex_doi "doi 10.1234/ab. " (Some (u " and ")); el "ext-link" [(HREF, u "http://a.org")] "http://a.org" [] " "; el "comment" [] "PMID:77 only" [] ""].
Example ex_safe2 : safe_run (steps ascii_space ascii_word ascii_digit ex_token ex_nopunct ex_nopunct ex_pii ex_pii ex_pmid ex_pmid_fix ex_pmcid ex_wos ex_prefix (fun _ => None) ex_lower)
  (safes ascii_space ascii_word ascii_digit ex_token ex_nopunct ex_nopunct ex_pii ex_pmid_fix ex_pmcid (fun _ => None)) ex_ref2.
Proof.
  unfold steps, safes. cbn [safe_run].
  Ltac next := let e := fresh "e" in let H := fresh "H" in intros e H; vm_compute in H; injection H as <-.
  Ltac none := unfold title_safe, doi_safe, replace_safe, pii_safe, pmid_safe, pmcid_safe, change_safe; cbn; repeat split; discriminate.
  split; [exact I|next]. split; [none|next]. split.
  { cbn. repeat split; try discriminate. exists 4, 14. split; [reflexivity|]. split; [lia|now left]. }
  next. split; [none|next]. split.
  { split; [cbn; repeat split; try discriminate; intros text [= <-]; left; vm_compute; lia|]. next. cbn. repeat split; try discriminate. all: do 2 eexists; (split; [reflexivity|]); (split; [lia|now left]). }
  next. split; [none|next]. split; [none|next]. split; [none|next]. split; [right; cbn; repeat split; discriminate|next]. split; [right; cbn; repeat split; discriminate|next].
  split; [exact I|next]. split; [exact I|next]. split; [cbn; repeat split; discriminate|next]. split; [exact I|auto].
Qed.
Example ex_C69 : below (TN (ND ex_lower)) ex_ref.
Proof. unfold ex_ref, cit, el, ex_type. cbn [below TN null ND]. unfold ND. repeat split; try discriminate. Qed.
(** a document of two references, one of them changed *)
Definition ex_id (e : node) (s : string) : node := match e with El m nm a x kids t => El m nm [(u "id", u s)] x kids t | Mi t => Mi t end.
Definition ex_doc : node :=
  el "article" [] "" [el "ref" [] "outside" [] ""; el "back" [] "" [el "ref-list" [] "" [ex_id ex_ref "r1"; ex_id (cit "No number" []) "r2"] ""] ""] "".
Definition ex_fix_doc := ModelJats.fix_jats_xml_node ascii_space ascii_word ascii_digit ex_token ex_nopunct ex_nopunct ex_pii ex_pii ex_pmid ex_pmid_fix ex_pmcid ex_wos ex_prefix (fun _ => None) ex_lower.
(** a plain way to write a tree *)
Fixpoint ex_tostring (e : node) : str :=
  match e with
  | El _ nm a x kids t => 60%N :: nm ++ flat_map (fun kv => 32%N :: fst kv ++ 61%N :: snd kv) a ++ 62%N :: otext x ++ flat_map ex_tostring kids ++ 60%N :: 47%N :: 62%N :: otext t
  | Mi t => otext t
  end.
Example ex_C70 : exists root', ex_fix_doc ex_doc = Ok root' /\ content root' = content ex_doc /\ length (refs root') = 2 /\
  (do c <- changed_references ex_tostring root' ex_doc ;; Ok (join_comma (map ref_id c))) = Ok (u "r1").
Proof. eexists. split; [vm_compute; reflexivity|]. repeat split; vm_compute; reflexivity. Qed.
Example ex_C70_meta : add_meta [(u "a", u "b")] (el "article" [] "" [el "front" [] "" [] ""] "") =
  el "article" [] "" [El None (u "custom-meta-group") [] (Some [NEWLINE]) [meta_element (u "a", u "b")] (Some [NEWLINE]); el "front" [] "" [] ""] "".
Proof. reflexivity. Qed.

Print Assumptions C47_text.
Print Assumptions C47_tail.
Print Assumptions C47_reference.
Print Assumptions C47_comment_partial.
Print Assumptions C47_comment_refuted.
Print Assumptions C48_found.
Print Assumptions C48_replace.
Print Assumptions C48_partial.
Print Assumptions C48_tail_refuted.
Print Assumptions C48_order_refuted.
Print Assumptions C68_partial.
Print Assumptions C68_simple.
Print Assumptions C68_tail_refuted.
Print Assumptions C68_links_refuted.
Print Assumptions C69_only.
Print Assumptions C69_no_doi.
Print Assumptions C69_first_refuted.
Print Assumptions C69_text_refuted.
Print Assumptions C69_two_refuted.
Print Assumptions C70_outside.
Print Assumptions C70_references.
Print Assumptions C70_changed.
Print Assumptions C70_content.
Print Assumptions C70_meta.
