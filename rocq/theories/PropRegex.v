(** C101: what regular expressions match.
    Spec: the relation [reads] (which texts an expression reads, and the groups in it) and the
    order of preference among the ways to read.
    Proved: the matching by backtracking finds a way if and only if there is one, and it
    is the first in the order of preference; [re.search] finds the leftmost place. *)
From Verif Require Import Base ModelRegex.
Open Scope nat_scope.

(* ------------------------------------------------------------------ *)
(** ** Spec *)
(** the last character of what has been read *)
Definition after (p : option N) (w : str) : option N := fold_left (fun _ c => Some c) w p.

Section Spec.
Variables sp wd dg : N -> bool.
Variable fold : N -> N.
Variable ic : bool.

Definition of_kind (k : kind) (c : N) : Prop :=
  match k with KDigit => dg c = true | KSpace => sp c = true | KWord => wd c = true end.
Definition same_char (a b : N) : Prop := if ic then fold a = fold b else a = b.
Definition in_item (c : N) (i : item) : Prop :=
  match i with
  | ILit a => same_char c a
  | IRange a b => (a <= c <= b)%N \/ (ic = true /\ (a <= fold c <= b)%N)
  | IKind k false => of_kind k c
  | IKind k true => ~ of_kind k c
  end.
Definition in_set (neg : bool) (l : list item) (c : N) : Prop :=
  if neg then forall i, In i l -> ~ in_item c i else exists i, In i l /\ in_item c i.
Definition word_char (c : option N) : Prop := exists x, c = Some x /\ wd x = true.
(** between a word character and another one (or the start or the end of the text) *)
Definition boundary (p : option N) (q : str) : Prop := ~ (word_char p <-> word_char (hd_error q)).

(** [reads r p i w q g]: the character before is [p], the position is [i], [r] can read [w],
    [q] follows, and the groups read are [g] (the last one first) *)
Inductive reads : re -> option N -> nat -> str -> str -> groups -> Prop :=
| rd_empty p i q : reads REmpty p i [] q []
| rd_char neg l p i c q : in_set neg l c -> reads (RChar neg l) p i [c] q []
| rd_start p q : reads RStart p 0 [] q []
| rd_end p i q : q = [] \/ q = [10%N] -> reads REnd p i [] q []
| rd_bound p i q : boundary p q -> reads (RBound false) p i [] q []
| rd_nobound p i q : ~ boundary p q -> reads (RBound true) p i [] q []
| rd_seq a b p i w1 w2 q g1 g2 :
    reads a p i w1 (w2 ++ q) g1 -> reads b (after p w1) (i + length w1) w2 q g2 -> reads (RSeq a b) p i (w1 ++ w2) q (g2 ++ g1)
| rd_left a b p i w q g : reads a p i w q g -> reads (RAlt a b) p i w q g
| rd_right a b p i w q g : reads b p i w q g -> reads (RAlt a b) p i w q g
| rd_group n a p i w q g : reads a p i w q g -> reads (RGroup n a) p i w q ((n, (i, i + length w)) :: g)
| rd_done gr hi a p i q : reads (RRep gr 0 hi a) p i [] q []
| rd_more gr lo hi a p i w1 w2 q g1 g2 :
    (lo = 0 -> hi <> Some 0 /\ w1 <> []) ->
    reads a p i w1 (w2 ++ q) g1 ->
    reads (RRep gr (pred lo) (option_map pred hi) a) (after p w1) (i + length w1) w2 q g2 ->
    reads (RRep gr lo hi a) p i (w1 ++ w2) q (g2 ++ g1).

(** all ways to read, in the order of preference: greedy repetitions prefer to go on, the others
    to stop; the left alternative comes first; earlier choices weigh more *)
Section Ways.
Variable b : place -> list place.
Variable greedy : bool.
Fixpoint ways_more (fuel : nat) (hi : option nat) (x : place) : list place :=
  let again :=
    match fuel, hi with
    | O, _ | _, Some O => []
    | S f, _ => flat_map (fun y => if pl_pos y =? pl_pos x then [] else ways_more f (option_map pred hi) y) (b x)
    end in
  if greedy then again ++ [x] else x :: again.
Fixpoint ways_repeat (lo : nat) (hi : option nat) (x : place) : list place :=
  match lo with
  | O => ways_more (length (pl_rest x)) hi x
  | S l => flat_map (ways_repeat l (option_map pred hi)) (b x)
  end.
End Ways.
Fixpoint ways (r : re) (x : place) : list place :=
  match r with
  | REmpty => [x]
  | RChar neg l =>
      match pl_rest x with
      | c :: s => if char_ok sp wd dg fold ic neg l c then [mkPlace (S (pl_pos x)) (Some c) s (pl_groups x)] else []
      | [] => []
      end
  | RStart => if pl_pos x =? 0 then [x] else []
  | REnd => if at_end (pl_rest x) then [x] else []
  | RBound neg => if xorb neg (at_boundary wd x) then [x] else []
  | RSeq a b => flat_map (ways b) (ways a x)
  | RAlt a b => ways a x ++ ways b x
  | RGroup n a => map (fun y => mkPlace (pl_pos y) (pl_prev y) (pl_rest y) ((n, (pl_pos x, pl_pos y)) :: pl_groups y)) (ways a x)
  | RRep gr lo hi a => ways_repeat (ways a) gr lo hi x
  end.
End Spec.

(* ------------------------------------------------------------------ *)
(** ** Proofs *)
Lemma after_app p a b : after p (a ++ b) = after (after p a) b.
Proof. apply fold_left_app. Qed.
Lemma after_last p a c : after p (a ++ [c]) = Some c.
Proof. now rewrite after_app. Qed.

Fixpoint first_some {A B} (k : A -> option B) (l : list A) : option B :=
  match l with [] => None | x :: l' => match k x with Some z => Some z | None => first_some k l' end end.
Lemma first_some_app {A B} (k : A -> option B) l l' :
  first_some k (l ++ l') = match first_some k l with Some z => Some z | None => first_some k l' end.
Proof. induction l as [|x l IH]; cbn; [reflexivity|]. destruct (k x); [reflexivity|exact IH]. Qed.
Lemma first_some_ext {A B} (k k' : A -> option B) l : (forall x, k x = k' x) -> first_some k l = first_some k' l.
Proof. intros H. induction l as [|x l IH]; cbn; [reflexivity|]. now rewrite H, IH. Qed.
Lemma first_some_flat_map {A B C} (k : B -> option C) (f : A -> list B) l :
  first_some k (flat_map f l) = first_some (fun x => first_some k (f x)) l.
Proof. induction l as [|x l IH]; cbn; [reflexivity|]. now rewrite first_some_app, IH. Qed.
Lemma first_some_map {A B C} (k : B -> option C) (f : A -> B) l : first_some k (map f l) = first_some (fun x => k (f x)) l.
Proof. induction l as [|x l IH]; cbn; [reflexivity|]. now rewrite IH. Qed.
Lemma first_some_in {A B} (k : A -> option B) l z : first_some k l = Some z -> exists x, In x l /\ k x = Some z.
Proof.
  induction l as [|x l IH]; cbn; [discriminate|]. destruct (k x) eqn:E; [intros [= <-]; eauto|]. intros H. destruct (IH H) as (y & Hy & Ey). eauto.
Qed.
Lemma first_some_none {A B} (k : A -> option B) l : first_some k l = None <-> forall x, In x l -> k x = None.
Proof.
  induction l as [|x l IH]; cbn; [split; [intros _ ? []|reflexivity]|]. destruct (k x) eqn:E.
  - split; [discriminate|]. intros H. rewrite <- E. apply H. now left.
  - rewrite IH. split; [intros H y [<-|Hy]; auto|intros H y Hy; apply H; now right].
Qed.

Section Proofs.
Variables sp wd dg : N -> bool.
Variable fold : N -> N.
Variable ic : bool.
Notation char_ok := (char_ok sp wd dg fold ic).
Notation reads := (reads sp wd dg fold ic).
Notation ways := (ways sp wd dg fold ic).
Notation bt := (bt sp wd dg fold ic).

Lemma kind_ok_spec k c : kind_ok sp wd dg k c = true <-> of_kind sp wd dg k c.
Proof. now destruct k. Qed.
Lemma item_ok_spec c i : item_ok sp wd dg fold ic c i = true <-> in_item sp wd dg fold ic c i.
Proof.
  destruct i as [a|a b|k neg]; cbn.
  - unfold same_char. destruct ic; apply N.eqb_eq.
  - rewrite orb_true_iff, !andb_true_iff, !N.leb_le. tauto.
  - pose proof (kind_ok_spec k c) as K. destruct neg, (kind_ok sp wd dg k c); cbn; intuition congruence.
Qed.
Lemma char_ok_spec neg l c : char_ok neg l c = true <-> in_set sp wd dg fold ic neg l c.
Proof.
  unfold ModelRegex.char_ok, in_set. destruct neg; [rewrite xorb_true_l|rewrite xorb_false_l].
  - rewrite negb_true_iff, <- not_true_iff_false, existsb_exists. split.
    + intros H i Hi Hc. apply H. exists i. split; [exact Hi|now apply item_ok_spec].
    + intros H (i & Hi & Hc). apply item_ok_spec in Hc. exact (H i Hi Hc).
  - rewrite existsb_exists. split; intros (i & Hi & Hc); exists i; (split; [exact Hi|now apply item_ok_spec]).
Qed.
Lemma is_word_spec c : is_word wd c = true <-> word_char wd c.
Proof. unfold word_char. destruct c as [x|]; cbn; [split; [eauto|intros (y & [= <-] & H); exact H]|split; [discriminate|intros (y & [=] & _)]]. Qed.
Lemma at_boundary_spec x : at_boundary wd x = true <-> boundary wd (pl_prev x) (pl_rest x).
Proof.
  unfold at_boundary, boundary. rewrite <- !is_word_spec. destruct (is_word wd (pl_prev x)), (is_word wd (hd_error (pl_rest x))); cbn; intuition congruence.
Qed.
Lemma at_end_spec s : at_end s = true <-> s = [] \/ s = [10%N].
Proof.
  destruct s as [|x [|y s]]; cbn; [intuition| |split; [discriminate|intros [[=]|[=]]]].
  rewrite N.eqb_eq. split; [intros ->; now right|intros [[=]|[= ->]]; reflexivity].
Qed.

(** *** Backtracking takes the first way *)
Lemma more_ways gr (b : body) (bl : place -> list place) :
  (forall x k, b x k = first_some k (bl x)) ->
  forall fuel hi x k, more gr b fuel hi x k = first_some k (ways_more bl gr fuel hi x).
Proof.
  intros Hb. induction fuel as [|f IH]; intros hi x k.
  - cbn. destruct gr; cbn; now destruct (k x).
  - cbn [more ways_more].
    assert (E : match hi with
                | Some O => None
                | _ => b x (fun y => if pl_pos y =? pl_pos x then None else more gr b f (option_map pred hi) y k)
                end =
                first_some k match hi with
                | Some O => []
                | _ => flat_map (fun y => if pl_pos y =? pl_pos x then [] else ways_more bl gr f (option_map pred hi) y) (bl x)
                end).
    { assert (E : b x (fun y => if pl_pos y =? pl_pos x then None else more gr b f (option_map pred hi) y k) =
                  first_some k (flat_map (fun y => if pl_pos y =? pl_pos x then [] else ways_more bl gr f (option_map pred hi) y) (bl x))).
      { rewrite Hb, first_some_flat_map. apply first_some_ext. intros y. destruct (pl_pos y =? pl_pos x); [reflexivity|apply IH]. }
      destruct hi as [[|h]|]; [reflexivity|exact E|exact E]. }
    destruct gr.
    + rewrite first_some_app. cbn [first_some]. rewrite <- E. destruct hi as [[|h]|]; destruct (k x); reflexivity.
    + cbn [first_some]. rewrite <- E. destruct (k x); [reflexivity|]. now destruct hi as [[|h]|].
Qed.
Lemma repeat_ways gr (b : body) (bl : place -> list place) :
  (forall x k, b x k = first_some k (bl x)) ->
  forall lo hi x k, repeat_body gr b lo hi x k = first_some k (ways_repeat bl gr lo hi x).
Proof.
  intros Hb. induction lo as [|lo IH]; intros hi x k; cbn [repeat_body ways_repeat]; [now apply more_ways|].
  rewrite Hb, first_some_flat_map. apply first_some_ext. intros y. apply IH.
Qed.
Theorem bt_ways r : forall x k, bt r x k = first_some k (ways r x).
Proof.
  induction r as [|neg l| | |neg|a IHa b IHb|a IHa b IHb|n a IHa|gr lo hi a IHa]; intros x k; cbn [ModelRegex.bt PropRegex.ways].
  - cbn. now destruct (k x).
  - destruct (pl_rest x) as [|c s]; [reflexivity|]. destruct (char_ok neg l c); [|reflexivity]. cbn. now destruct (k _).
  - destruct (pl_pos x =? 0); [|reflexivity]. cbn. now destruct (k x).
  - destruct (at_end (pl_rest x)); [|reflexivity]. cbn. now destruct (k x).
  - destruct (xorb neg (at_boundary wd x)); [|reflexivity]. cbn. now destruct (k x).
  - rewrite IHa, first_some_flat_map. apply first_some_ext. intros y. apply IHb.
  - now rewrite first_some_app, IHa, IHb.
  - now rewrite IHa, first_some_map.
  - now apply repeat_ways.
Qed.

(** *** The ways are those of [reads] *)
Definition moved (x : place) (w q : str) (g : groups) : place :=
  mkPlace (pl_pos x + length w) (after (pl_prev x) w) q (g ++ pl_groups x).
Definition read_by (r : re) (x y : place) : Prop :=
  exists w q g, pl_rest x = w ++ q /\ reads r (pl_prev x) (pl_pos x) w q g /\ y = moved x w q g.
Lemma moved_nil x : x = moved x [] (pl_rest x) [].
Proof. destruct x. unfold moved. cbn. now rewrite Nat.add_0_r. Qed.
Lemma moved_nil' x : pl_rest x = [] -> x = moved x [] [] [].
Proof. intros E. rewrite (moved_nil x) at 1. now rewrite E. Qed.
Lemma moved_moved x w1 q1 g1 w2 q2 g2 : moved (moved x w1 q1 g1) w2 q2 g2 = moved x (w1 ++ w2) q2 (g2 ++ g1).
Proof. unfold moved. cbn. now rewrite app_length, after_app, app_assoc, Nat.add_assoc. Qed.
Lemma moved_pos x w q g : (pl_pos (moved x w q g) =? pl_pos x) = true <-> w = [].
Proof. unfold moved. cbn. rewrite Nat.eqb_eq. destruct w; cbn; [intuition lia|]. split; [lia|discriminate]. Qed.

Lemma more_reads gr a :
  (forall x y, In y (ways a x) <-> read_by a x y) ->
  forall fuel hi x y, length (pl_rest x) <= fuel -> In y (ways_more (ways a) gr fuel hi x) <-> read_by (RRep gr 0 hi a) x y.
Proof.
  intros Ha. induction fuel as [|f IH]; intros hi x y Hl.
  - assert (Hr : pl_rest x = []) by (destruct (pl_rest x); [reflexivity|cbn in Hl; lia]).
    assert (E : In y (ways_more (ways a) gr 0 hi x) <-> x = y) by (cbn; destruct gr; cbn; intuition).
    rewrite E. split.
    + intros <-. exists [], [], []. split; [exact Hr|]. split; [constructor|]. now apply moved_nil'.
    + intros (w & q & g & E1 & R & ->). rewrite Hr in E1. symmetry in E1. apply app_eq_nil in E1 as [-> ->].
      inversion R; subst; [now apply moved_nil'|]. match goal with K : 0 = 0 -> _ |- _ => destruct (K eq_refl) as [_ K2] end.
      match goal with K : _ ++ _ = [] |- _ => apply app_eq_nil in K as [-> ->] end. contradiction.
  - assert (E : In y (ways_more (ways a) gr (S f) hi x) <->
                x = y \/ (hi <> Some 0 /\ exists z, In z (ways a x) /\ (pl_pos z =? pl_pos x) = false /\ In y (ways_more (ways a) gr f (option_map pred hi) z))).
    { set (l := flat_map (fun z => if pl_pos z =? pl_pos x then [] else ways_more (ways a) gr f (option_map pred hi) z) (ways a x)).
      assert (El : In y l <-> exists z, In z (ways a x) /\ (pl_pos z =? pl_pos x) = false /\ In y (ways_more (ways a) gr f (option_map pred hi) z)).
      { unfold l. rewrite in_flat_map. split; intros (z & Hz & H); exists z; (split; [exact Hz|]); destruct (pl_pos z =? pl_pos x); auto; [destruct H|destruct H; discriminate|tauto]. }
      cbn [ways_more]. fold l. destruct hi as [[|h]|].
      - destruct gr; cbn; intuition.
      - rewrite <- El. destruct gr; [rewrite in_app_iff|]; cbn [In]; intuition discriminate.
      - rewrite <- El. destruct gr; [rewrite in_app_iff|]; cbn [In]; intuition discriminate. }
    rewrite E. clear E. split.
    + intros [<-|(Hh & z & Hz & Hp & Hy)].
      * exists [], (pl_rest x), []. split; [reflexivity|]. split; [constructor|apply moved_nil].
      * apply Ha in Hz as (w1 & q1 & g1 & E1 & R1 & ->).
        assert (Hw : w1 <> []) by (intros ->; now rewrite (proj2 (moved_pos x [] q1 g1) eq_refl) in Hp).
        apply IH in Hy.
        2: { unfold moved. cbn. rewrite E1, app_length in Hl. destruct w1; [contradiction|]. cbn in Hl. lia. }
        destruct Hy as (w2 & q2 & g2 & E2 & R2 & ->). rewrite moved_moved. cbn in E2. subst q1.
        exists (w1 ++ w2), q2, (g2 ++ g1). split; [now rewrite <- app_assoc|]. split; [|reflexivity]. apply rd_more; auto.
    + intros (w & q & g & E1 & R & ->). inversion R; subst.
      * left. cbn in E1. rewrite <- E1. apply moved_nil.
      * match goal with K : 0 = 0 -> _ |- _ => destruct (K eq_refl) as [K1 K2] end. right. split; [exact K1|].
        exists (moved x w1 (w2 ++ q) g1). split; [apply Ha; exists w1, (w2 ++ q), g1; rewrite <- app_assoc in E1; auto|].
        split; [apply not_true_iff_false; now rewrite moved_pos|]. apply IH.
        -- unfold moved. cbn. rewrite E1 in Hl. rewrite !app_length in *. destruct w1; [contradiction|]. cbn in Hl. lia.
        -- exists w2, q, g2. split; [reflexivity|]. split; [assumption|]. now rewrite moved_moved.
Qed.
Lemma repeat_reads gr a :
  (forall x y, In y (ways a x) <-> read_by a x y) ->
  forall lo hi x y, In y (ways_repeat (ways a) gr lo hi x) <-> read_by (RRep gr lo hi a) x y.
Proof.
  intros Ha. induction lo as [|lo IH]; intros hi x y; cbn [ways_repeat]; [now apply more_reads|].
  rewrite in_flat_map. split.
  - intros (z & Hz & Hy). apply Ha in Hz as (w1 & q1 & g1 & E1 & R1 & ->). apply IH in Hy as (w2 & q2 & g2 & E2 & R2 & ->).
    rewrite moved_moved. cbn in E2. subst q1. exists (w1 ++ w2), q2, (g2 ++ g1). split; [now rewrite <- app_assoc|]. split; [|reflexivity].
    now apply rd_more.
  - intros (w & q & g & E1 & R & ->). inversion R; subst. exists (moved x w1 (w2 ++ q) g1). rewrite <- app_assoc in E1. split.
    + apply Ha. exists w1, (w2 ++ q), g1. auto.
    + apply IH. exists w2, q, g2. split; [reflexivity|]. split; [assumption|]. now rewrite moved_moved.
Qed.
Theorem ways_reads r : forall x y, In y (ways r x) <-> read_by r x y.
Proof.
  assert (K : forall (x : place) (P : Prop) (b : bool) r' (y : place),
    (b = true <-> P) -> (forall p i w q g, reads r' p i w q g -> w = [] /\ g = []) ->
    (P <-> reads r' (pl_prev x) (pl_pos x) [] (pl_rest x) []) ->
    In y (if b then [x] else []) <-> read_by r' x y).
  { intros x P b r' y Hb Hw Hr. split.
    - destruct b; [|intros []]. intros [<-|[]]. exists [], (pl_rest x), []. split; [reflexivity|]. split; [apply Hr, Hb; reflexivity|apply moved_nil].
    - intros (w & q & g & E & R & ->). destruct (Hw _ _ _ _ _ R) as [-> ->]. cbn in E. subst q. apply Hr, Hb in R. rewrite R. left. apply moved_nil. }
  induction r as [|neg l| | |neg|a IHa b IHb|a IHa b IHb|n a IHa|gr lo hi a IHa]; intros x y; cbn [PropRegex.ways].
  - apply (K x True true REmpty y); [tauto|intros p i w q g R; inversion R; auto|split; [constructor|tauto]].
  - split.
    + destruct (pl_rest x) as [|c s] eqn:Er; [intros []|]. destruct (char_ok neg l c) eqn:Ec; [|intros []]. intros [<-|[]].
      exists [c], s, []. split; [exact Er|]. split; [constructor; now apply char_ok_spec|]. unfold moved. cbn. now rewrite Nat.add_1_r.
    + intros (w & q & g & E & R & ->). inversion R; subst. rewrite E. cbn. match goal with J : in_set _ _ _ _ _ _ _ _ |- _ => apply char_ok_spec in J; rewrite J end.
      left. unfold moved. cbn. now rewrite Nat.add_1_r.
  - apply (K x (pl_pos x = 0)); [apply Nat.eqb_eq|intros p i w q g R; inversion R; auto|]. split; [intros ->; constructor|intros R; now inversion R].
  - apply (K x (pl_rest x = [] \/ pl_rest x = [10%N])); [apply at_end_spec|intros p i w q g R; inversion R; auto|]. split; [now constructor|intros R; now inversion R].
  - destruct neg.
    + apply (K x (~ boundary wd (pl_prev x) (pl_rest x))); [|intros p i w q g R; inversion R; auto|].
      * cbn. rewrite <- at_boundary_spec. destruct (at_boundary wd x); cbn; intuition congruence.
      * split; [now constructor|intros R; now inversion R].
    + apply (K x (boundary wd (pl_prev x) (pl_rest x))); [|intros p i w q g R; inversion R; auto|].
      * rewrite <- at_boundary_spec. now destruct (at_boundary wd x).
      * split; [now constructor|intros R; now inversion R].
  - rewrite in_flat_map. split.
    + intros (z & Hz & Hy). apply IHa in Hz as (w1 & q1 & g1 & E1 & R1 & ->). apply IHb in Hy as (w2 & q2 & g2 & E2 & R2 & ->).
      rewrite moved_moved. cbn in E2. subst q1. exists (w1 ++ w2), q2, (g2 ++ g1). split; [now rewrite <- app_assoc|]. split; [|reflexivity]. now constructor.
    + intros (w & q & g & E1 & R & ->). inversion R; subst. rewrite <- app_assoc in E1. exists (moved x w1 (w2 ++ q) g1). split.
      * apply IHa. exists w1, (w2 ++ q), g1. auto.
      * apply IHb. exists w2, q, g2. split; [reflexivity|]. split; [assumption|]. now rewrite moved_moved.
  - rewrite in_app_iff, IHa, IHb. split.
    + intros [(w & q & g & E & R & ->)|(w & q & g & E & R & ->)]; exists w, q, g; (split; [exact E|]); (split; [|reflexivity]); [now apply rd_left|now apply rd_right].
    + intros (w & q & g & E & R & ->). inversion R; subst; [left|right]; exists w, q, g; auto.
  - rewrite in_map_iff. split.
    + intros (z & <- & Hz). apply IHa in Hz as (w & q & g & E & R & ->). exists w, q, ((n, (pl_pos x, pl_pos x + length w)) :: g).
      split; [exact E|]. split; [now constructor|reflexivity].
    + intros (w & q & g & E & R & ->). inversion R; subst. eexists. split; [|apply IHa; exists w, q; eexists; split; [exact E|]; split; [eassumption|reflexivity]]. reflexivity.
  - now apply repeat_reads.
Qed.
End Proofs.

(* ------------------------------------------------------------------ *)
(** ** Searching *)
Section Search.
Variables sp wd dg : N -> bool.
Variable fold : N -> N.
Notation reads := (reads sp wd dg fold).
Notation ways := (ways sp wd dg fold).

(** [p] reads [w] after [a] and before [q]; [pos], [prev]: where the text starts *)
Definition reads_at (p : pattern) (pos : nat) (prev : option N) (a w q : str) (g : groups) : Prop :=
  reads (pt_ic p) (pt_re p) (after prev a) (pos + length a) w q g.
(** an empty match at the start is not wanted if [must] *)
Definition wanted (must : bool) (a w : str) : Prop := must = true -> a = [] -> w <> [].

Lemma match_here_spec p must pos prev s :
  match match_here sp wd dg fold p must pos prev s with
  | Some m =>
      exists w q, s = w ++ q /\ fo_start m = pos /\ fo_end m = pos + length w /\
                  reads (pt_ic p) (pt_re p) prev pos w q (fo_groups m) /\ (must = true -> w <> [])
  | None => forall w q g, s = w ++ q -> reads (pt_ic p) (pt_re p) prev pos w q g -> must = true /\ w = []
  end.
Proof.
  unfold match_here. rewrite bt_ways. set (x := mkPlace pos prev s []).
  destruct (first_some _ _) as [y|] eqn:E.
  - apply first_some_in in E as (z & Hz & Ez). apply ways_reads in Hz as (w & q & g & E1 & R & ->). cbn in E1, R.
    destruct (must && (pl_pos (moved x w q g) =? pos)) eqn:Em; [discriminate|]. injection Ez as <-. cbn. rewrite app_nil_r.
    exists w, q. repeat split; auto. intros -> ->. cbn in Em. rewrite Nat.add_0_r in Em. now rewrite Nat.eqb_refl in Em.
  - rewrite first_some_none in E. intros w q g E1 R.
    assert (Hi : In (moved x w q g) (ways (pt_ic p) (pt_re p) x)) by (apply ways_reads; exists w, q, g; auto).
    apply E in Hi. destruct (must && (pl_pos (moved x w q g) =? pos)) eqn:Em; [|discriminate]. apply andb_true_iff in Em as [Em Ep]. split; [exact Em|].
    now apply (moved_pos x w q g).
Qed.

Lemma search_from_spec p : forall s must pos prev,
  match search_from sp wd dg fold p must pos prev s with
  | Some m =>
      exists a w q, s = a ++ w ++ q /\ fo_start m = pos + length a /\ fo_end m = pos + length a + length w /\
        reads_at p pos prev a w q (fo_groups m) /\ wanted must a w /\
        (forall a' w' q' g, s = a' ++ w' ++ q' -> reads_at p pos prev a' w' q' g -> wanted must a' w' -> length a <= length a')
  | None => forall a w q g, s = a ++ w ++ q -> reads_at p pos prev a w q g -> ~ wanted must a w
  end.
Proof.
  unfold reads_at, wanted. induction s as [|c s IH]; intros must pos prev; cbn [search_from].
  - pose proof (match_here_spec p must pos prev []) as H. destruct (match_here sp wd dg fold p must pos prev []) as [m|].
    + destruct H as (w & q & E & H1 & H2 & H3 & H4). exists [], w, q. cbn. rewrite Nat.add_0_r. repeat split; auto. intros. lia.
    + intros a w q g E R. symmetry in E. apply app_eq_nil in E as [-> E]. cbn in R. rewrite Nat.add_0_r in R.
      destruct (H w q g (eq_sym E) R) as [-> ->]. intros K. now apply K.
  - pose proof (match_here_spec p must pos prev (c :: s)) as H. destruct (match_here sp wd dg fold p must pos prev (c :: s)) as [m|].
    + destruct H as (w & q & E & H1 & H2 & H3 & H4). exists [], w, q. cbn [length app after fold_left]. rewrite Nat.add_0_r. repeat split; auto. intros. lia.
    + assert (Hno : forall w q g, c :: s = w ++ q -> reads (pt_ic p) (pt_re p) prev (pos + 0) w q g -> ~ (must = true -> [] = @nil N -> w <> [])).
      { intros w q g E R K. rewrite Nat.add_0_r in R. destruct (H w q g E R) as [-> ->]. now apply K. }
      specialize (IH false (S pos) (Some c)). destruct (search_from sp wd dg fold p false (S pos) (Some c) s) as [m|].
      * destruct IH as (a & w & q & E & H1 & H2 & H3 & _ & H5). exists (c :: a), w, q. cbn [length app after fold_left].
        rewrite E, H1, H2. split; [reflexivity|]. split; [lia|]. split; [lia|]. replace (pos + S (length a)) with (S pos + length a) by lia.
        split; [exact H3|]. split; [discriminate|].
        intros [|c' a'] w' q' g E' R' K'.
        -- cbn in E'. rewrite <- E in E'. destruct (Hno _ _ _ E' R' K').
        -- cbn in E'. rewrite <- E in E'. injection E' as <- E'. cbn [length after fold_left] in R'. apply le_n_S, (H5 a' w' q' g); [exact E'|now replace (S pos + length a') with (pos + S (length a')) by lia|discriminate].
      * intros [|c' a'] w q g E R; [exact (Hno w q g E R)|]. cbn in E. injection E as <- E. intros _. cbn [length after fold_left] in R.
        apply (IH a' w q g E); [now replace (S pos + length a') with (pos + S (length a')) by lia|discriminate].
Qed.

(** C101: the pattern [p] reads [w] in the text [a ++ w ++ q] *)
Definition occurs (p : pattern) (a w q : str) (g : groups) : Prop := reads (pt_ic p) (pt_re p) (after None a) (length a) w q g.

(** C101: [re.search] finds an occurrence if there is one, and none starts before it *)
Theorem C101_search p s :
  match re_search sp wd dg fold p s with
  | Some m =>
      exists a w q, s = a ++ w ++ q /\ occurs p a w q (fo_groups m) /\ fo_start m = length a /\ fo_end m = length a + length w /\
        forall a' w' q' g, s = a' ++ w' ++ q' -> occurs p a' w' q' g -> length a <= length a'
  | None => forall a w q g, s = a ++ w ++ q -> ~ occurs p a w q g
  end.
Proof.
  unfold re_search. pose proof (search_from_spec p s false 0 None) as H. destruct (search_from sp wd dg fold p false 0 None s) as [m|].
  - destruct H as (a & w & q & E & H1 & H2 & H3 & _ & H5). exists a, w, q. repeat split; auto.
    intros a' w' q' g E' R. apply (H5 a' w' q' g E' R). discriminate.
  - intros a w q g E R. apply (H a w q g E R). discriminate.
Qed.

(** C101: of the ways to read at a place the first in the order of preference is taken *)
Theorem C101_first p i prev s :
  match_here sp wd dg fold p false i prev s =
  match ways (pt_ic p) (pt_re p) (mkPlace i prev s []) with
  | y :: _ => Some (mkFound i (pl_pos y) (pl_groups y))
  | [] => None
  end.
Proof. unfold match_here. rewrite bt_ways. now destruct (ways (pt_ic p) (pt_re p) (mkPlace i prev s [])). Qed.
(** C101: so does a search, at the place it finds *)
Theorem C101_preferred p s m : re_search sp wd dg fold p s = Some m ->
  exists a r y l, s = a ++ r /\ ways (pt_ic p) (pt_re p) (mkPlace (length a) (after None a) r []) = y :: l /\ m = mkFound (length a) (pl_pos y) (pl_groups y).
Proof.
  unfold re_search. assert (H : forall s pos prev, search_from sp wd dg fold p false pos prev s = Some m ->
    exists a r, s = a ++ r /\ match_here sp wd dg fold p false (pos + length a) (after prev a) r = Some m).
  { induction s0 as [|c s0 IH]; intros pos prev E; cbn [search_from] in E.
    - exists [], []. split; [reflexivity|]. cbn. rewrite Nat.add_0_r. now destruct (match_here sp wd dg fold p false pos prev []).
    - destruct (match_here sp wd dg fold p false pos prev (c :: s0)) as [m'|] eqn:Em.
      + exists [], (c :: s0). split; [reflexivity|]. cbn. rewrite Nat.add_0_r. congruence.
      + destruct (IH _ _ E) as (a & r & -> & Er). exists (c :: a), r. split; [reflexivity|]. cbn. now rewrite Nat.add_succ_r. }
  intros E. destruct (H _ _ _ E) as (a & r & -> & Er). rewrite C101_first in Er. cbn [plus] in Er.
  destruct (ways (pt_ic p) (pt_re p) (mkPlace (length a) (after None a) r [])) as [|y l] eqn:Ew; [discriminate|]. injection Er as <-. exists a, r, y, l. auto.
Qed.
(** C101: [re.match] *)
Theorem C101_match p s :
  match re_match sp wd dg fold p s with
  | Some m => exists w q, s = w ++ q /\ occurs p [] w q (fo_groups m) /\ fo_start m = 0 /\ fo_end m = length w
  | None => forall w q g, s = w ++ q -> ~ occurs p [] w q g
  end.
Proof.
  unfold re_match. pose proof (match_here_spec p false 0 None s) as H. destruct (match_here sp wd dg fold p false 0 None s) as [m|].
  - destruct H as (w & q & E & H1 & H2 & H3 & _). exists w, q. auto.
  - intros w q g E R. destruct (H w q g E R). discriminate.
Qed.

(** *** [finditer] *)
Lemma last_char_after prev w : last_char prev w = after prev w.
Proof. unfold last_char. induction w as [|c w IH] using rev_ind; [reflexivity|]. now rewrite rev_app_distr, after_last. Qed.

(** one after the other, from [pos] on *)
Fixpoint in_order (pos : nat) (l : list found) : Prop :=
  match l with [] => True | m :: l' => pos <= fo_start m <= fo_end m /\ in_order (fo_end m) l' end.
Lemma in_order_le l : forall pos pos', pos' <= pos -> in_order pos l -> in_order pos' l.
Proof. destruct l as [|m l]; cbn; [auto|]. intros pos pos' H [H1 H2]. split; [lia|exact H2]. Qed.
Lemma in_order_ge l : forall pos m, in_order pos l -> In m l -> pos <= fo_start m <= fo_end m.
Proof.
  induction l as [|m0 l IH]; intros pos m H Hm; [destruct Hm|]. destruct H as [H1 H2]. destruct Hm as [<-|Hm]; [exact H1|]. specialize (IH _ _ H2 Hm). lia.
Qed.

Lemma find_all_spec p (full : str) : forall fuel (must : bool) (b : str) prev s,
  full = b ++ s -> prev = after None b -> 2 * length s + (if must then 0 else 1) < fuel ->
  let l := find_all sp wd dg fold fuel p must (length b) prev s in
  in_order (length b) l /\
  (forall m, In m l -> exists a w q, full = a ++ w ++ q /\ occurs p a w q (fo_groups m) /\ fo_start m = length a /\ fo_end m = length a + length w) /\
  (forall a w q g, full = a ++ w ++ q -> occurs p a w q g -> w <> [] -> length b <= length a ->
     exists m, In m l /\ fo_start m <= length a /\ (length a < fo_end m \/ fo_start m = length a)).
Proof.
  induction fuel as [|fuel IH]; intros must b prev s Ef Ep Hf; [lia|]. cbn [find_all].
  pose proof (search_from_spec p s must (length b) prev) as H. destruct (search_from sp wd dg fold p must (length b) prev s) as [m|]; cbv zeta.
  - destruct H as (a & w & q & E & H1 & H2 & H3 & H4 & H5). unfold reads_at in *. subst prev. rewrite <- after_app in H3.
    assert (Hm : full = (b ++ a) ++ w ++ q) by (rewrite Ef, E; now rewrite <- app_assoc).
    replace (fo_end m - length b) with (length (a ++ w)) by (rewrite app_length; lia).
    replace (firstn (length (a ++ w)) s) with (a ++ w) by (rewrite E, app_assoc, firstn_app, Nat.sub_diag, firstn_O, app_nil_r; now rewrite firstn_all).
    replace (skipn (length (a ++ w)) s) with q by (rewrite E, app_assoc, skipn_app, Nat.sub_diag, skipn_all; reflexivity).
    rewrite last_char_after, <- after_app.
    specialize (IH (fo_start m =? fo_end m) (b ++ a ++ w) (after None (b ++ a ++ w)) q).
    replace (fo_end m) with (length (b ++ a ++ w)) in IH |- * by (rewrite !app_length; lia).
    destruct IH as (I1 & I2 & I3); [rewrite Hm, <- !app_assoc; reflexivity|reflexivity| |].
    { rewrite E, !app_length in Hf. rewrite H1, !app_length. destruct w as [|c w].
      - cbn [length] in *. rewrite !Nat.add_0_r, Nat.eqb_refl. destruct a as [|c a]; [|cbn [length] in Hf; destruct must; lia].
        destruct must; [exfalso; now apply H4|]. cbn in *. lia.
      - cbn [length] in Hf. destruct (_ =? _); destruct must; lia. }
    split; [|split].
    + cbn [in_order]. replace (fo_end m) with (length (b ++ a ++ w)) by (rewrite !app_length; lia). split; [|exact I1]. rewrite !app_length. lia.
    + intros m' [<-|Hi]; [|now apply I2]. exists (b ++ a), w, q. split; [exact Hm|]. unfold occurs. rewrite !app_length. split; [exact H3|lia].
    + intros a' w' q' g E' R' Hw' Hl. destruct (le_lt_dec (length (b ++ a ++ w)) (length a')) as [Hge|Hlt].
      * destruct (I3 a' w' q' g E' R' Hw' Hge) as (m' & Hi & Hs). exists m'. split; [now right|exact Hs].
      * exists m. split; [now left|]. assert (Hex : exists d, a' = b ++ d).
        { exists (skipn (length b) a'). rewrite <- (firstn_skipn (length b) a') at 1. f_equal. transitivity (firstn (length b) full).
          - rewrite E', firstn_app. replace (length b - length a') with 0 by lia. now rewrite firstn_O, app_nil_r.
          - rewrite Ef, firstn_app, Nat.sub_diag, firstn_O, app_nil_r. apply firstn_all. }
        destruct Hex as [d ->]. assert (Ed : s = d ++ w' ++ q') by (apply (app_inv_head b); rewrite <- Ef, E'; now rewrite <- app_assoc).
        unfold occurs in R'. rewrite after_app, app_length in R'. specialize (H5 d w' q' g Ed R').
        assert (length a <= length d) by (apply H5; intros _ _; exact Hw'). rewrite !app_length in *. lia.
  - split; [exact I|]. split; [intros m []|]. intros a w q g E R Hw Hl. exfalso.
    assert (Hex : exists d, a = b ++ d).
    { exists (skipn (length b) a). rewrite <- (firstn_skipn (length b) a) at 1. f_equal. transitivity (firstn (length b) full).
      - rewrite E, firstn_app. replace (length b - length a) with 0 by lia. now rewrite firstn_O, app_nil_r.
      - rewrite Ef, firstn_app, Nat.sub_diag, firstn_O, app_nil_r. apply firstn_all. }
    destruct Hex as [d ->]. assert (Ed : s = d ++ w ++ q) by (apply (app_inv_head b); rewrite <- Ef, E; now rewrite <- app_assoc).
    unfold occurs in R. rewrite after_app, app_length in R. subst prev. apply (H d w q g Ed R). intros _ _. exact Hw.
Qed.

(** C101: [finditer] gives occurrences one after the other, and none that is not empty starts
    between two of them, before the first or after the last *)
Theorem C101_all p s :
  let l := re_finditer sp wd dg fold p s in
  in_order 0 l /\
  (forall m, In m l -> exists a w q, s = a ++ w ++ q /\ occurs p a w q (fo_groups m) /\ fo_start m = length a /\ fo_end m = length a + length w) /\
  (forall a w q g, s = a ++ w ++ q -> occurs p a w q g -> w <> [] ->
     exists m, In m l /\ fo_start m <= length a /\ (length a < fo_end m \/ fo_start m = length a)).
Proof.
  unfold re_finditer. destruct (find_all_spec p s (2 * length s + 2) false [] None s) as (H1 & H2 & H3); [reflexivity|reflexivity|lia|].
  split; [exact H1|]. split; [exact H2|]. intros a w q g E R Hw. apply (H3 a w q g E R Hw). cbn. lia.
Qed.
End Search.

(* ------------------------------------------------------------------ *)
(** ** Examples *)
Definition ex_lower (c : N) : N := if (65 <=? c)%N && (c <=? 90)%N then (c + 32)%N else c.
Definition ex_space (c : N) : bool := N.eqb c 32.
Definition ex_digit (c : N) : bool := (48 <=? c)%N && (c <=? 57)%N.
Definition ex_word (c : N) : bool := ex_digit c || ((97 <=? ex_lower c)%N && (ex_lower c <=? 122)%N).
Definition ex_pattern (s : str) : pattern := match re_compile s with Parsed p => p | _ => mkPattern false 0 REmpty end.
Example C101_search_example :
  re_search ex_space ex_word ex_digit ex_lower (ex_pattern (u "(?:PMID\s*\:\s*)(\d{1,10})\b")) (u "x PMID : 123. PMID:4") = Some (mkFound 2 12 [(1, (9, 12))]) /\
  re_search ex_space ex_word ex_digit ex_lower (ex_pattern (u "(?:PMID\s*\:\s*)(\d{1,10})\b")) (u "x PMID : 12345678901") = None.
Proof. split; vm_compute; reflexivity. Qed.
(** a lazy repetition takes as little as it can, a greedy one as much *)
Example C101_first_example :
  match_here ex_space ex_word ex_digit ex_lower (ex_pattern (u "(.*?)(b*)c")) false 0 None (u "abbc") = Some (mkFound 0 4 [(2, (1, 3)); (1, (0, 1))]) /\
  match_here ex_space ex_word ex_digit ex_lower (ex_pattern (u "(.*)(b*)c")) false 0 None (u "abbc") = Some (mkFound 0 4 [(2, (3, 3)); (1, (0, 3))]).
Proof. split; vm_compute; reflexivity. Qed.
Example C101_preferred_example :
  re_search ex_space ex_word ex_digit ex_lower (ex_pattern (u "a+?|(aab?)")) (u "xaab") = Some (mkFound 1 2 []) /\
  map (fun y => (pl_pos y, pl_groups y)) (ways ex_space ex_word ex_digit ex_lower false (pt_re (ex_pattern (u "a+?|(aab?)"))) (mkPlace 1 (Some 120%N) (u "aab") [])) =
    [(2, []); (3, []); (4, [(1, (1, 4))]); (3, [(1, (1, 3))])].
Proof. split; vm_compute; reflexivity. Qed.
Example C101_match_example :
  re_match ex_space ex_word ex_digit ex_lower (ex_pattern (u "(?i)ab|abc")) (u "ABCd") = Some (mkFound 0 2 []) /\
  re_match ex_space ex_word ex_digit ex_lower (ex_pattern (u "(?i)ab|abc")) (u "xab") = None.
Proof. split; vm_compute; reflexivity. Qed.
Example C101_all_example :
  map (fun m => (fo_start m, fo_end m)) (re_finditer ex_space ex_word ex_digit ex_lower (ex_pattern (u "\d*")) (u "a12b")) = [(0, 0); (1, 3); (3, 3); (4, 4)].
Proof. vm_compute. reflexivity. Qed.

Print Assumptions C101_search.
Print Assumptions C101_first.
Print Assumptions C101_preferred.
Print Assumptions C101_match.
Print Assumptions C101_all.
