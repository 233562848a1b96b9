(** C26-C29: junk removal, inverted ranges, ratios and splitting of matches *)
From Verif Require Import Base ModelFuzzyMatch.
From Coq Require FinFun.
From Coq Require Import Sorted.
Open Scope Z_scope.

(* ---------------------------------------------------------------- *)
(** ** C26: junk removal *)

(** the characters of [s] (at positions k, k+1, ...) that are not junk *)
Fixpoint keep_from (j : nat -> bool) (k : nat) (s : str) : str :=
  match s with
  | [] => []
  | c :: s' => if j k then keep_from j (S k) s' else c :: keep_from j (S k) s'
  end.

Lemma py_range_seq i n : py_range (Z.of_nat i) (Z.of_nat i + Z.of_nat n) = map Z.of_nat (seq i n).
Proof.
  unfold py_range. replace (Z.of_nat i + Z.of_nat n - Z.of_nat i) with (Z.of_nat n) by lia. rewrite Nat2Z.id.
  enough (G : forall b, map (fun k => Z.of_nat i + Z.of_nat k) (seq b n) = map Z.of_nat (seq (i + b) n)).
  { rewrite G, Nat.add_0_r. reflexivity. }
  induction n as [|n IH]; intros b; [reflexivity|].
  cbn [seq map]. f_equal; [lia|]. rewrite IH, Nat.add_succ_r. reflexivity.
Qed.
Lemma py_slice_mid {A} (x y z : list A) : py_slice (x ++ y ++ z) (slen x) (slen x + slen y) = y.
Proof.
  unfold py_slice, slen. cbn zeta.
  destruct (Z.of_nat (length x) <? 0) eqn:E1; [apply Z.ltb_lt in E1; lia|].
  destruct (Z.of_nat (length x) + Z.of_nat (length y) <? 0) eqn:E2; [apply Z.ltb_lt in E2; lia|].
  replace (Z.of_nat (length x) + Z.of_nat (length y) - Z.of_nat (length x)) with (Z.of_nat (length y)) by lia.
  rewrite !Nat2Z.id, skipn_app, skipn_all, Nat.sub_diag. cbn [app skipn].
  rewrite firstn_app, firstn_all, Nat.sub_diag. cbn. apply app_nil_r.
Qed.
Lemma keep_app j s1 : forall k s2, keep_from j k (s1 ++ s2) = keep_from j k s1 ++ keep_from j (k + length s1) s2.
Proof.
  induction s1 as [|c s1 IH]; intros k s2; cbn; [now rewrite Nat.add_0_r|].
  rewrite IH, Nat.add_succ_r. destruct (j k); reflexivity.
Qed.
Lemma keep_none j s : forall k, (forall i, (k <= i < k + length s)%nat -> j i = false) -> keep_from j k s = s.
Proof.
  induction s as [|c s IH]; intros k H; cbn; [reflexivity|].
  rewrite H by (cbn; lia). f_equal. apply IH. intros i Hi. apply H. cbn. lia.
Qed.

Section Junk.
Variables (isjunk : junk_fn) (s : str) (j : nat -> bool).
Hypothesis Hj : forall i, (i < length s)%nat -> isjunk s (Z.of_nat i) = Ok (j i).

Definition junk_step := fun (st : option (list str) * Z) (i : Z) =>
  let (result, start) := st in
  do b <- isjunk s i ;;
  if b : bool then
    let r := match result with Some r => r | None => [] end in
    Ok (Some (if start <? i then r ++ [py_slice s start i] else r), i + 1)
  else Ok st.

(* state after [k] characters: [s1] is handled, [s2] pending *)
Definition junk_inv (k : nat) (st : option (list str) * Z) : Prop :=
  exists s1 s2 s3, s = s1 ++ s2 ++ s3 /\ (length s1 + length s2 = k)%nat /\ snd st = slen s1 /\
    match fst st with Some r => concat r = keep_from j 0 s1 | None => s1 = [] end /\
    (forall i, (length s1 <= i < k)%nat -> j i = false).
Lemma junk_fold n : forall k st, (k + n = length s)%nat -> junk_inv k st ->
  exists st', foldM junk_step st (map Z.of_nat (seq k n)) = Ok st' /\ junk_inv (length s) st'.
Proof.
  induction n as [|n IH]; intros k st Hk Hst.
  - exists st. split; [reflexivity|]. now replace (length s) with k by lia.
  - cbn [seq map foldM]. destruct st as [result start]. destruct Hst as (s1 & s2 & s3 & E & L & St & R & Nj).
    cbn [fst snd] in St, R.
    destruct s3 as [|c s3].
    { exfalso. apply (f_equal (@length _)) in E. rewrite !app_length in E. cbn in E. lia. }
    unfold junk_step at 1. rewrite Hj by lia. cbn [bind]. destruct (j k) eqn:Ejk; cbn [bind]; (apply IH; [lia|]).
    + exists (s1 ++ s2 ++ [c]), [], s3. cbn [app fst snd].
      split; [rewrite E, <- !app_assoc; reflexivity|].
      split; [rewrite !app_length; cbn; lia|].
      split; [unfold slen; rewrite !app_length; cbn [length]; lia|].
      split; [|intros i Hi; rewrite !app_length in Hi; cbn in Hi; lia].
      rewrite keep_app, keep_app. cbn [keep_from].
      replace (0 + length s1 + length s2)%nat with k by lia. rewrite Ejk.
      assert (K2 : keep_from j (0 + length s1) s2 = s2) by (apply keep_none; intros i Hi; apply Nj; lia).
      assert (Kr : concat (match result with Some r => r | None => [] end) = keep_from j 0 s1).
      { destruct result; [exact R|subst s1; reflexivity]. }
      rewrite K2, app_nil_r, <- Kr. rewrite St.
      destruct (slen s1 <? Z.of_nat k) eqn:El.
      * rewrite concat_app. cbn [concat]. rewrite app_nil_r. f_equal.
        replace (Z.of_nat k) with (slen s1 + slen s2) by (unfold slen; lia). rewrite E. apply py_slice_mid.
      * apply Z.ltb_ge in El. unfold slen in El. destruct s2; [now rewrite app_nil_r|cbn in L; lia].
    + exists s1, (s2 ++ [c]), s3. cbn [fst snd].
      split; [rewrite E, <- !app_assoc; reflexivity|].
      split; [rewrite app_length; cbn; lia|]. split; [exact St|]. split; [exact R|].
      intros i Hi. destruct (Nat.eq_dec i k) as [->|]; [exact Ejk|]. apply Nj. lia.
Qed.
(** Exactly the characters that are not junk, in order. *)
Theorem C26_filter : remove_junk isjunk s = Ok (keep_from j 0 s).
Proof.
  unfold remove_junk. fold junk_step.
  change (py_range 0 (slen s)) with (py_range (Z.of_nat 0) (Z.of_nat 0 + Z.of_nat (length s))). rewrite py_range_seq.
  destruct (junk_fold (length s) 0%nat (None, 0)) as ([result start] & E & s1 & s2 & s3 & E1 & L & St & R & Nj).
  - reflexivity.
  - exists [], [], s. repeat split. intros; lia.
  - change (foldM _ (None, 0) (map Z.of_nat (seq 0 (length s)))) with (foldM junk_step (None, 0) (map Z.of_nat (seq 0 (length s)))).
    rewrite E. cbn [bind fst snd] in *.
    assert (s3 = []).
    { destruct s3; [reflexivity|]. apply (f_equal (@length _)) in E1. rewrite !app_length in E1. cbn in E1. lia. }
    subst s3. rewrite app_nil_r in E1.
    assert (K2 : keep_from j (length s1) s2 = s2) by (apply keep_none; intros i Hi; apply Nj; lia).
    destruct result as [r|].
    + f_equal. rewrite E1 at 3. rewrite keep_app. cbn [Nat.add]. rewrite K2, <- R. rewrite St.
      destruct (slen s1 <? slen s) eqn:El.
      * rewrite concat_app. cbn [concat]. rewrite app_nil_r. f_equal. unfold py_from.
        replace (slen s) with (slen s1 + slen s2) by (unfold slen; lia).
        rewrite E1. rewrite <- (app_nil_r s2) at 1. apply py_slice_mid.
      * apply Z.ltb_ge in El. unfold slen in El. destruct s2; [now rewrite app_nil_r|cbn in L; lia].
    + f_equal. subst s1. cbn in E1. subst s2. symmetry. apply keep_none. intros i Hi. apply Nj. cbn in *. lia.
Qed.
End Junk.

(** what the default rule calls junk: a star, a repeated character, a dot after a
    letter, a space or comma after a dot *)
Definition default_junk_at (alpha : N -> bool) (s : str) (i : nat) : bool :=
  let c := nth i s 0%N in
  (N.eqb c 42 ||
   match i with
   | O => false
   | S i' => let p := nth i' s 0%N in
             N.eqb p c || (alpha p && N.eqb c 46) || (N.eqb p 46 && (N.eqb c 32 || N.eqb c 44))
   end)%bool.
Lemma py_at_nat {A} (d : A) (s : list A) i : (i < length s)%nat -> py_at s (Z.of_nat i) = Ok (nth i s d).
Proof.
  intros H. unfold py_at. destruct (Z.of_nat i <? 0) eqn:E; [apply Z.ltb_lt in E; lia|]. rewrite E, Nat2Z.id.
  rewrite (nth_error_nth' s d H). reflexivity.
Qed.
Lemma default_isjunk_at alpha s i : (i < length s)%nat ->
  default_isjunk alpha s (Z.of_nat i) = Ok (default_junk_at alpha s i).
Proof.
  intros H. unfold default_isjunk, default_junk_at. rewrite (py_at_nat 0%N) by exact H. destruct i as [|i].
  - cbn. now rewrite orb_false_r.
  - destruct (0 <? Z.of_nat (S i)) eqn:E; [|apply Z.ltb_ge in E; lia].
    replace (Z.of_nat (S i) - 1) with (Z.of_nat i) by lia. rewrite (py_at_nat 0%N) by lia. cbn [bind]. f_equal.
    unfold c_dot, c_space, c_comma, c_star.
    repeat (match goal with |- context [N.eqb ?a ?b] => destruct (N.eqb a b) end); destruct (alpha (nth i s 0%N)); reflexivity.
Qed.
Theorem C26_default alpha s : remove_junk (default_isjunk alpha) s = Ok (keep_from (default_junk_at alpha s) 0 s).
Proof. apply C26_filter. intros i Hi. now apply default_isjunk_at. Qed.

Example C26_ex : remove_junk (default_isjunk ascii_alpha) (u "J. Smith*,  et al.") = Ok (u "JSmith, et al").
Proof. reflexivity. Qed.

(* ---------------------------------------------------------------- *)
(** ** C27: inverted ranges *)

Definition within (p : Z) (r : Z * Z) : Prop := fst r <= p < snd r.
Definition covered (p : Z) (l : list (Z * Z)) : Prop := exists r, In r l /\ within p r.
Definition before (r r' : Z * Z) : Prop := snd r <= fst r'.
Definition sorted_ranges (l : list (Z * Z)) : Prop :=
  Forall (fun r => fst r <= snd r) l /\ StronglySorted before l.

Ltac lists := repeat (apply Forall_cons || apply Forall_nil || apply SSorted_cons || apply SSorted_nil).

Lemma sorted_tail r l : sorted_ranges (r :: l) -> fst r <= snd r /\ sorted_ranges l /\ Forall (fun x => snd r <= fst x) l.
Proof.
  intros [H1 H2]. inversion H1; inversion H2; subst. repeat split; auto.
Qed.

(** The positions of the outer range outside all ranges; the ranges may straddle
    the bounds but none ends before the start. *)
Theorem C27_invert l : forall start end_, sorted_ranges l -> (forall r, In r l -> start <= snd r) ->
  forall p, covered p (invert_index_ranges l start end_) <-> start <= p < end_ /\ ~ covered p l.
Proof.
  unfold covered, within. induction l as [|[rs re] l IH]; intros start end_ Hs Hb p.
  - cbn. destruct (start <? end_) eqn:E.
    + split.
      * intros (r & [<-|[]] & H). cbn in H. split; [exact H|]. intros (? & [] & _).
      * intros [H _]. exists (start, end_). split; [now left|exact H].
    + apply Z.ltb_ge in E. split; [intros (? & [] & _)|intros [H _]; lia].
  - apply sorted_tail in Hs as (H1 & H2 & H3). cbn [fst snd] in *.
    assert (Hre : start <= re) by (apply (Hb (rs, re)); now left).
    assert (Hl : forall r, In r l -> re <= fst r) by now apply Forall_forall.
    assert (Hl2 : forall r, In r l -> re <= snd r).
    { intros r Hr. destruct H2 as [H2 _]. rewrite Forall_forall in H2. specialize (H2 r Hr). specialize (Hl r Hr). lia. }
    cbn [invert_index_ranges]. destruct (end_ <=? start) eqn:E.
    { apply Z.leb_le in E. split; [intros (? & [] & _)|intros [H _]; lia]. }
    apply Z.leb_gt in E. specialize (IH re end_ H2 Hl2 p).
    assert (Hc : (exists r, In r ((rs, re) :: l) /\ fst r <= p < snd r) <-> (rs <= p < re) \/ exists r, In r l /\ fst r <= p < snd r).
    { split.
      - intros (r & [<-|Hr] & Hp); [now left|right; eauto].
      - intros [Hp|(r & Hr & Hp)]; [exists (rs, re); split; [now left|exact Hp]|exists r; split; [now right|exact Hp]]. }
    rewrite Hc.
    assert (Hlow : (exists r, In r l /\ fst r <= p < snd r) -> re <= p).
    { intros (r & Hr & Hp). specialize (Hl r Hr). lia. }
    assert (Happ : forall l1 l2 : list (Z * Z), (exists r, In r (l1 ++ l2) /\ fst r <= p < snd r) <->
      (exists r, In r l1 /\ fst r <= p < snd r) \/ exists r, In r l2 /\ fst r <= p < snd r).
    { intros l1 l2. split.
      - intros (r & Hr & Hp). apply in_app_or in Hr as [Hr|Hr]; eauto.
      - intros [(r & Hr & Hp)|(r & Hr & Hp)]; exists r; (split; [apply in_or_app; auto|exact Hp]). }
    rewrite Happ, IH. destruct (start <? rs) eqn:E2.
    + apply Z.ltb_lt in E2. split.
      * intros [(r & [<-|[]] & Hp)|[Hp Hn]].
        -- cbn in Hp. split; [lia|]. intros [?|Hx]; [lia|]. apply Hlow in Hx. lia.
        -- split; [lia|]. intros [?|Hx]; [lia|]. now apply Hn.
      * intros [Hp Hn]. destruct (Z_lt_le_dec p rs) as [?|?].
        -- left. eexists. split; [now left|]. cbn. lia.
        -- right. split; [|intros Hx; apply Hn; now right]. destruct (Z_lt_le_dec p re); [exfalso; apply Hn; left; lia|lia].
    + apply Z.ltb_ge in E2. split.
      * intros [(r & [] & _)|[Hp Hn]]. split; [lia|]. intros [?|Hx]; [lia|]. now apply Hn.
      * intros [Hp Hn]. right. split; [|intros Hx; apply Hn; now right].
        destruct (Z_lt_le_dec p re); [exfalso; apply Hn; left; lia|lia].
Qed.
(** The result is sorted, its ranges are not empty and do not touch. *)
Theorem C27_sorted l : forall start end_, sorted_ranges l -> (forall r, In r l -> start <= snd r) ->
  Forall (fun r => start <= fst r /\ fst r < snd r /\ snd r <= end_) (invert_index_ranges l start end_) /\
  StronglySorted before (invert_index_ranges l start end_).
Proof.
  induction l as [|[rs re] l IH]; intros start end_ Hs Hb.
  - cbn. destruct (start <? end_) eqn:E; [apply Z.ltb_lt in E|]; split; repeat constructor; cbn; lia.
  - apply sorted_tail in Hs as (H1 & H2 & H3). cbn [fst snd] in *.
    assert (Hre : start <= re) by (apply (Hb (rs, re)); now left).
    cbn [invert_index_ranges]. destruct (end_ <=? start) eqn:E; [split; constructor|]. apply Z.leb_gt in E.
    destruct (IH re end_ H2) as [I1 I2].
    { intros r Hr. destruct H2 as [H2 _]. rewrite Forall_forall in H2, H3. specialize (H2 r Hr). specialize (H3 r Hr). lia. }
    assert (I1' : Forall (fun r => start <= fst r /\ fst r < snd r /\ snd r <= end_) (invert_index_ranges l re end_)).
    { eapply Forall_impl; [|exact I1]. cbn beta. intros; lia. }
    destruct (start <? rs) eqn:E2; [|now split]. apply Z.ltb_lt in E2. cbn [app]. split.
    + constructor; [cbn; lia|exact I1'].
    + constructor; [exact I2|]. eapply Forall_impl; [|exact I1]. unfold before. cbn. intros; lia.
Qed.
(** Without the condition on the start the result leaves the outer range. *)
Theorem C27_refuted : exists l start end_ p, sorted_ranges l /\
  covered p (invert_index_ranges l start end_) /\ ~ start <= p < end_.
Proof.
  exists [(0, 2)], 5, 10, 3. split.
  - split; repeat constructor; cbn; lia.
  - split; [|lia]. exists (2, 10). split; [now left|unfold within; cbn; lia].
Qed.

Example C27_ex : invert_index_ranges [(1, 3); (3, 5); (8, 9); (12, 30)] 2 20 = [(5, 8); (9, 12)].
Proof. reflexivity. Qed.
Example C27_ex_hyp : sorted_ranges [(1, 3); (3, 5); (8, 9); (12, 30)] /\
  forall r, In r [(1, 3); (3, 5); (8, 9); (12, 30)] -> 2 <= snd r.
Proof.
  split; [split; lists; cbv; intuition discriminate|].
  intros r [<-|[<-|[<-|[<-|[]]]]]; cbn; lia.
Qed.

(* ---------------------------------------------------------------- *)
(** ** C28: ratios *)

(** blocks within bounds, in order in both texts *)
Definition in_bounds (a b : str) (x : block) : Prop :=
  0 <= b_a x /\ 0 <= b_b x /\ 0 <= b_n x /\ b_a x + b_n x <= slen a /\ b_b x + b_n x <= slen b.
Definition follows (x y : block) : Prop := b_a x + b_n x <= b_a y /\ b_b x + b_n x <= b_b y.
Definition valid (a b : str) (l : list block) : Prop := Forall (in_bounds a b) l /\ StronglySorted follows l.
(** the junk function can be applied at every position *)
Definition junk_total (f : junk_fn) : Prop := forall s i, 0 <= i < slen s -> exists v, f s i = Ok v.

Lemma default_total alpha : junk_total (default_isjunk alpha).
Proof.
  intros s i H. unfold slen in H. exists (default_junk_at alpha s (Z.to_nat i)). rewrite <- default_isjunk_at by lia.
  now rewrite Z2Nat.id.
Qed.
Lemma dot_total : junk_total dot_is_junk.
Proof.
  intros s i H. unfold slen in H. unfold dot_is_junk. rewrite <- (Z2Nat.id i) by lia. rewrite (py_at_nat 0%N) by lia. cbn. eauto.
Qed.

Lemma zsum_app l1 l2 : zsum (l1 ++ l2) = zsum l1 + zsum l2.
Proof. unfold zsum. induction l1; cbn; lia. Qed.
Lemma filter_sorted {A} (R : A -> A -> Prop) f l : StronglySorted R l -> StronglySorted R (filter f l).
Proof.
  induction 1 as [|x l H IH Hf]; cbn; [constructor|]. destruct (f x); [|exact IH]. constructor; [exact IH|].
  rewrite Forall_forall in *. intros y Hy. apply filter_In in Hy as [Hy _]. auto.
Qed.
Lemma valid_filter a b f l : valid a b l -> valid a b (filter f l).
Proof.
  intros [H1 H2]. split; [|now apply filter_sorted]. rewrite Forall_forall in *. intros x Hx.
  apply filter_In in Hx as [Hx _]. auto.
Qed.
Lemma sum_nonempty l : Forall (fun x => 0 <= b_n x) l ->
  zsum (map b_n (filter (fun x => negb (b_n x =? 0)) l)) = zsum (map b_n l).
Proof.
  unfold zsum. induction 1 as [|x l Hx H IH]; [reflexivity|]. cbn [filter map fold_right].
  destruct (b_n x =? 0) eqn:E; cbn [negb map fold_right]; rewrite IH; [apply Z.eqb_eq in E; lia|reflexivity].
Qed.

(** counting junk in a range *)
Lemma count_bound f s r : junk_total f -> 0 <= fst r -> fst r <= snd r -> snd r <= slen s ->
  exists n, count_junk_between f s r = Ok n /\ 0 <= n <= snd r - fst r.
Proof.
  intros Hf H0 H1 H2. unfold count_junk_between, py_range.
  assert (G : forall k b n0, (b + k <= Z.to_nat (snd r - fst r))%nat -> exists n,
    foldM (fun n i => do j <- f s i ;; Ok (n + (if j : bool then 1 else 0))) n0
      (map (fun k => fst r + Z.of_nat k) (seq b k)) = Ok n /\ n0 <= n <= n0 + Z.of_nat k).
  { induction k as [|k IH]; intros b n0 Hk.
    - exists n0. cbn. split; [reflexivity|lia].
    - cbn [seq map foldM]. destruct (Hf s (fst r + Z.of_nat b)) as [v Hv]; [lia|]. rewrite Hv. cbn [bind].
      destruct (IH (S b) (n0 + (if v then 1 else 0))) as (n & E & Hn); [lia|]. exists n. split; [exact E|].
      destruct v; lia. }
  destruct (G (Z.to_nat (snd r - fst r)) 0%nat 0) as (n & E & Hn); [lia|]. exists n. split; [exact E|lia].
Qed.
Definition ranges_len (l : list (Z * Z)) : Z := zsum (map len_index_range l).
Lemma count_all f s l : junk_total f -> Forall (fun r => 0 <= fst r /\ fst r <= snd r /\ snd r <= slen s) l ->
  exists n, foldM (fun n x => do k <- count_junk_between f s x ;; Ok (n + k)) 0 l = Ok n /\ 0 <= n <= ranges_len l.
Proof.
  intros Hf H.
  assert (G : forall n0, exists n, foldM (fun n x => do k <- count_junk_between f s x ;; Ok (n + k)) n0 l = Ok n /\ n0 <= n <= n0 + ranges_len l).
  { induction H as [|r l Hr H IH]; intros n0; cbn [foldM].
    - exists n0. unfold ranges_len. cbn. split; [reflexivity|lia].
    - destruct (count_bound f s r Hf) as (n & -> & Hn); try lia. cbn [bind].
      destruct (IH (n0 + n)) as (m & E & Hm). exists m. split; [exact E|].
      unfold ranges_len in *. cbn [map zsum fold_right]. unfold len_index_range at 1. unfold zsum in Hm. lia. }
  destruct (G 0) as (n & E & Hn). exists n. split; [exact E|lia].
Qed.
(** inverting sorted ranges inside an outer range leaves the rest *)
Lemma invert_len l : forall start end_, sorted_ranges l -> start <= end_ ->
  Forall (fun r => start <= fst r /\ snd r <= end_) l ->
  Forall (fun r => start <= fst r /\ fst r <= snd r /\ snd r <= end_) (invert_index_ranges l start end_) /\
  ranges_len (invert_index_ranges l start end_) = end_ - start - ranges_len l.
Proof.
  unfold ranges_len. induction l as [|[rs re] l IH]; intros start end_ Hs Hse Hb.
  - cbn. destruct (start <? end_) eqn:E; [apply Z.ltb_lt in E|apply Z.ltb_ge in E]; split; repeat constructor; cbn; unfold len_index_range; cbn; lia.
  - apply sorted_tail in Hs as (H1 & H2 & H3). inversion Hb as [|? ? [B1 B2] B]; subst. cbn [fst snd] in *.
    assert (B' : Forall (fun r => re <= fst r /\ snd r <= end_) l).
    { rewrite Forall_forall in *. intros r Hr. specialize (B r Hr). specialize (H3 r Hr). lia. }
    destruct (IH re end_ H2 ltac:(lia) B') as [I1 I2].
    cbn [invert_index_ranges map zsum fold_right]. unfold len_index_range at 2. cbn [fst snd].
    destruct (end_ <=? start) eqn:E.
    + apply Z.leb_le in E. split; [constructor|]. cbn.
      assert (Z0 : zsum (map len_index_range l) = 0).
      { clear -B' H2 E B1 B2 H1. destruct H2 as [H2 _]. unfold zsum. revert B' H2. induction l as [|r l IH]; intros B H2; [reflexivity|].
        inversion B; inversion H2; subst. cbn. unfold len_index_range at 1. rewrite IH by assumption. lia. }
      unfold zsum in Z0. lia.
    + apply Z.leb_gt in E.
      assert (I1' : Forall (fun r => start <= fst r /\ fst r <= snd r /\ snd r <= end_) (invert_index_ranges l re end_)).
      { eapply Forall_impl; [|exact I1]. cbn beta. intros; lia. }
      unfold zsum in *. destruct (start <? rs) eqn:E2; [apply Z.ltb_lt in E2|apply Z.ltb_ge in E2]; cbn [app]; split.
      * constructor; [cbn; lia|exact I1'].
      * cbn [map fold_right]. rewrite I2. unfold len_index_range at 1. cbn. lia.
      * exact I1'.
      * rewrite I2. lia.
Qed.

(** ** C28: exact values *)
(** [n] is the number of positions of the range that are junk and in no block;
    [side] is [b_a] for the first text and [b_b] for the second *)
Definition idle_junk (f : junk_fn) (s : str) (side : block -> Z) (blocks : list block) (lo hi n : Z) : Prop :=
  exists L, NoDup L /\ n = Z.of_nat (length L) /\
    forall i, In i L <-> lo <= i < hi /\ f s i = Ok true /\ ~ exists x, In x blocks /\ side x <= i < side x + b_n x.
(** the part of a text from the first to the last matching character *)
Definition extent (side : block -> Z) (blocks : list block) (lo hi : Z) : Prop :=
  (Forall (fun x => b_n x = 0) blocks /\ lo = hi) \/
  (Exists (fun x => 0 < b_n x /\ side x = lo) blocks /\ Exists (fun x => 0 < b_n x /\ side x + b_n x = hi) blocks /\
   Forall (fun x => 0 < b_n x -> lo <= side x /\ side x + b_n x <= hi) blocks).
Definition quotient (r : Q) (n d : Z) : Prop := (d = 0 /\ (r == 0)%Q) \/ (d <> 0 /\ (r * inject_Z d == inject_Z n)%Q).

Definition is_junk (f : junk_fn) (s : str) (i : Z) : bool := match f s i with Ok true => true | _ => false end.
Definition positions (l : list (Z * Z)) : list Z := flat_map (fun r => py_range (fst r) (snd r)) l.
Lemma In_py_range i a b : In i (py_range a b) <-> a <= i < b.
Proof.
  unfold py_range. rewrite in_map_iff. split.
  - intros (k & <- & H). apply in_seq in H. lia.
  - intros H. exists (Z.to_nat (i - a)). split; [lia|]. apply in_seq. lia.
Qed.
Lemma NoDup_py_range a b : NoDup (py_range a b).
Proof.
  unfold py_range. apply FinFun.Injective_map_NoDup; [intros x y H; lia|apply seq_NoDup].
Qed.
Lemma foldM_count f s l : junk_total f -> (forall i, In i l -> 0 <= i < slen s) -> forall n0,
  foldM (fun n i => do j <- f s i ;; Ok (n + (if j : bool then 1 else 0))) n0 l
  = Ok (n0 + Z.of_nat (length (filter (is_junk f s) l))).
Proof.
  intros Hf. induction l as [|i l IH]; intros Hl n0; cbn [foldM filter].
  - cbn. f_equal. lia.
  - destruct (Hf s i) as [v Hv]; [apply Hl; now left|]. rewrite Hv. cbn [bind]. rewrite IH by (intros; apply Hl; now right).
    unfold is_junk at 2. rewrite Hv. destruct v; cbn [length]; f_equal; lia.
Qed.
Lemma foldM_counts f s l : junk_total f -> (forall i, In i (positions l) -> 0 <= i < slen s) -> forall n0,
  foldM (fun n x => do k <- count_junk_between f s x ;; Ok (n + k)) n0 l
  = Ok (n0 + Z.of_nat (length (filter (is_junk f s) (positions l)))).
Proof.
  intros Hf. induction l as [|r l IH]; intros Hl n0; cbn [foldM positions flat_map].
  - cbn. f_equal. lia.
  - unfold count_junk_between. rewrite (foldM_count f s _ Hf) by (intros i Hi; apply Hl; cbn; apply in_app_iff; now left).
    cbn [bind]. rewrite IH by (intros i Hi; apply Hl; cbn; apply in_app_iff; now right).
    unfold positions. rewrite filter_app, app_length. f_equal. lia.
Qed.
Lemma In_positions i l : In i (positions l) <-> covered i l.
Proof.
  unfold positions, covered, within. rewrite in_flat_map. split; intros (r & H1 & H2); exists r; (split; [exact H1|]);
    now apply In_py_range.
Qed.
Lemma nodup_app {A} (l1 l2 : list A) : NoDup l1 -> NoDup l2 -> (forall x, In x l1 -> ~ In x l2) -> NoDup (l1 ++ l2).
Proof.
  intros H1 H2 H. induction H1 as [|x l Hx H1 IH]; [exact H2|]. cbn [app]. constructor.
  - rewrite in_app_iff. intros [F|F]; [exact (Hx F)|exact (H x (or_introl eq_refl) F)].
  - apply IH. intros y Hy. apply H. now right.
Qed.
Lemma NoDup_positions l : StronglySorted before l -> Forall (fun r => fst r <= snd r) l -> NoDup (positions l).
Proof.
  induction 1 as [|r l H IH Hf]; intros Hl; [constructor|]. inversion Hl; subst. cbn [positions flat_map]. apply nodup_app; auto.
  - apply NoDup_py_range.
  - intros i I1 I2. apply In_py_range in I1. apply In_positions in I2 as (q & Q1 & Q2). rewrite Forall_forall in Hf. specialize (Hf q Q1).
    unfold before, within in *. lia.
Qed.
Lemma idle_exact f s side blocks l lo hi n : junk_total f -> sorted_ranges l -> (forall r, In r l -> lo <= snd r) ->
  0 <= lo -> hi <= slen s -> (forall i, covered i l <-> exists x, In x blocks /\ side x <= i < side x + b_n x) ->
  idle_junk f s side blocks lo hi n -> count_non_matching_junk f s l (lo, hi) = Ok n.
Proof.
  intros Hf Hs Hb H0 H1 Hc (L & L1 & L2 & L3). unfold count_non_matching_junk. cbn [fst snd].
  pose proof (C27_invert l lo hi Hs Hb) as Hi. destruct (C27_sorted l lo hi Hs Hb) as [S1 S2].
  rewrite (foldM_counts f s _ Hf).
  - rewrite L2. cbn [Z.add]. do 2 f_equal.
    assert (N2 : NoDup (filter (is_junk f s) (positions (invert_index_ranges l lo hi)))).
    { apply NoDup_filter, NoDup_positions; [exact S2|]. eapply Forall_impl; [|exact S1]. cbn beta. intros; lia. }
    assert (M : forall i, In i (filter (is_junk f s) (positions (invert_index_ranges l lo hi))) <-> In i L).
    { intros i. rewrite filter_In, In_positions, Hi, L3, Hc. unfold is_junk. destruct (f s i) as [[|]|]; intuition congruence. }
    apply Nat.le_antisymm; apply NoDup_incl_length; auto; intros i; apply M.
  - intros i H. apply In_positions, Hi in H. lia.
Qed.

Section Ratios.
Variable m : fmr.
Hypothesis Hv : valid (f_a m) (f_b m) (f_blocks m).
Hypothesis Hjt : junk_total (f_junk m).

Lemma non_empty_valid : valid (f_a m) (f_b m) (non_empty m).
Proof. now apply valid_filter. Qed.
Lemma match_count_ne : match_count m = zsum (map b_n (non_empty m)).
Proof.
  unfold match_count, non_empty. symmetry. apply sum_nonempty. destruct Hv as [H _].
  eapply Forall_impl; [|exact H]. unfold in_bounds. tauto.
Qed.
Lemma match_count_nonneg : 0 <= match_count m.
Proof.
  unfold match_count, zsum. destruct Hv as [H _]. revert H. generalize (f_blocks m) as l. intros l H.
  induction H as [|x l Hx H IH]; cbn [map fold_right]; [lia|]. destruct Hx as (_ & _ & Hx & _). lia.
Qed.
Lemma a_blocks_sorted : sorted_ranges (a_matching_blocks m) /\ ranges_len (a_matching_blocks m) = match_count m.
Proof.
  rewrite match_count_ne. unfold a_matching_blocks. destruct non_empty_valid as [H1 H2]. split; [split|].
  - apply Forall_map. eapply Forall_impl; [|exact H1]. unfold in_bounds. cbn. intros; lia.
  - clear H1. induction H2 as [|x l H IH Hf]; cbn; constructor; auto. apply Forall_map.
    eapply Forall_impl; [|exact Hf]. unfold follows, before. cbn. intros; lia.
  - clear. unfold ranges_len, zsum. induction (non_empty m) as [|x l IH]; [reflexivity|]. cbn [map fold_right]. rewrite IH. unfold len_index_range. cbn [fst snd]. lia.
Qed.
Lemma b_blocks_sorted : sorted_ranges (b_matching_blocks m) /\ ranges_len (b_matching_blocks m) = match_count m.
Proof.
  rewrite match_count_ne. unfold b_matching_blocks. destruct non_empty_valid as [H1 H2]. split; [split|].
  - apply Forall_map. eapply Forall_impl; [|exact H1]. unfold in_bounds. cbn. intros; lia.
  - clear H1. induction H2 as [|x l H IH Hf]; cbn; constructor; auto. apply Forall_map.
    eapply Forall_impl; [|exact Hf]. unfold follows, before. cbn. intros; lia.
  - clear. unfold ranges_len, zsum. induction (non_empty m) as [|x l IH]; [reflexivity|]. cbn [map fold_right]. rewrite IH. unfold len_index_range. cbn [fst snd]. lia.
Qed.
Lemma last_block_max (l : list block) x : StronglySorted follows (x :: l) -> Forall (fun y => 0 <= b_n y) (x :: l) ->
  In (last_block (x :: l)) (x :: l) /\
  forall y, In y (x :: l) -> b_a x <= b_a y /\ b_b x <= b_b y /\
    b_a y + b_n y <= b_a (last_block (x :: l)) + b_n (last_block (x :: l)) /\
    b_b y + b_n y <= b_b (last_block (x :: l)) + b_n (last_block (x :: l)).
Proof.
  revert x. induction l as [|z l IH]; intros x Hs Hn.
  - cbn. split; [now left|]. intros y [<-|[]]. lia.
  - inversion Hs as [|? ? Hs' Hf]; inversion Hn as [|? ? Hx Hn']; subst.
    destruct (IH z Hs' Hn') as [I1 I2]. change (last_block (x :: z :: l)) with (last_block (z :: l)).
    split; [now right|]. intros y [<-|Hy].
    + rewrite Forall_forall in Hf. specialize (Hf _ I1). unfold follows in Hf. rewrite Forall_forall in Hn'. specialize (Hn' _ I1).
      cbv beta in Hn'. lia.
    + specialize (I2 y Hy). inversion Hf as [|? ? Hz _]; subst. unfold follows in Hz. lia.
Qed.
Lemma a_range_facts : let r := a_index_range m in 0 <= fst r /\ fst r <= snd r /\ snd r <= slen (f_a m) /\
  Forall (fun x => fst r <= fst x /\ snd x <= snd r) (a_matching_blocks m).
Proof.
  cbn zeta. unfold a_index_range, a_matching_blocks. destruct non_empty_valid as [H1 H2].
  destruct (non_empty m) as [|x l] eqn:E; [cbn; unfold slen; repeat split; try lia; constructor|].
  destruct (last_block_max l x H2) as [L1 L2]. { eapply Forall_impl; [|exact H1]. unfold in_bounds. tauto. }
  rewrite Forall_forall in H1. pose proof (H1 x ltac:(now left)) as Bx. pose proof (H1 _ L1) as Bl.
  pose proof (L2 x ltac:(now left)). unfold in_bounds in *. cbn [fst snd]. repeat split; try lia.
  rewrite Forall_forall. intros r Hr. apply in_map_iff in Hr as (y & <- & Hy). specialize (L2 y Hy). cbn [fst snd]. lia.
Qed.
Lemma b_range_facts : let r := b_index_range m in 0 <= fst r /\ fst r <= snd r /\ snd r <= slen (f_b m) /\
  Forall (fun x => fst r <= fst x /\ snd x <= snd r) (b_matching_blocks m).
Proof.
  cbn zeta. unfold b_index_range, b_matching_blocks. destruct non_empty_valid as [H1 H2].
  destruct (non_empty m) as [|x l] eqn:E; [cbn; unfold slen; repeat split; try lia; constructor|].
  destruct (last_block_max l x H2) as [L1 L2]. { eapply Forall_impl; [|exact H1]. unfold in_bounds. tauto. }
  rewrite Forall_forall in H1. pose proof (H1 x ltac:(now left)) as Bx. pose proof (H1 _ L1) as Bl.
  pose proof (L2 x ltac:(now left)). unfold in_bounds in *. cbn [fst snd]. repeat split; try lia.
  rewrite Forall_forall. intros r Hr. apply in_map_iff in Hr as (y & <- & Hy). specialize (L2 y Hy). cbn [fst snd]. lia.
Qed.
(** junk outside of the blocks of a range *)
Lemma a_junk r : 0 <= fst r -> fst r <= snd r -> snd r <= slen (f_a m) ->
  Forall (fun x => fst r <= fst x /\ snd x <= snd r) (a_matching_blocks m) ->
  exists n, a_non_matching_junk m r = Ok n /\ 0 <= n <= snd r - fst r - match_count m.
Proof.
  intros H0 H1 H2 H3. destruct a_blocks_sorted as [S1 S2]. destruct (invert_len _ (fst r) (snd r) S1 H1 H3) as [I1 I2].
  unfold a_non_matching_junk, count_non_matching_junk.
  destruct (count_all (f_junk m) (f_a m) (invert_index_ranges (a_matching_blocks m) (fst r) (snd r)) Hjt) as (n & E & Hn).
  { eapply Forall_impl; [|exact I1]. cbn beta. intros; lia. }
  exists n. split; [exact E|]. lia.
Qed.
Lemma b_junk r : 0 <= fst r -> fst r <= snd r -> snd r <= slen (f_b m) ->
  Forall (fun x => fst r <= fst x /\ snd x <= snd r) (b_matching_blocks m) ->
  exists n, b_non_matching_junk m r = Ok n /\ 0 <= n <= snd r - fst r - match_count m.
Proof.
  intros H0 H1 H2 H3. destruct b_blocks_sorted as [S1 S2]. destruct (invert_len _ (fst r) (snd r) S1 H1 H3) as [I1 I2].
  unfold b_non_matching_junk, count_non_matching_junk.
  destruct (count_all (f_junk m) (f_b m) (invert_index_ranges (b_matching_blocks m) (fst r) (snd r)) Hjt) as (n & E & Hn).
  { eapply Forall_impl; [|exact I1]. cbn beta. intros; lia. }
  exists n. split; [exact E|]. lia.
Qed.
Lemma whole_a : Forall (fun x => 0 <= fst x /\ snd x <= slen (f_a m)) (a_matching_blocks m).
Proof. pose proof a_range_facts as (A & B & C & D). eapply Forall_impl; [|exact D]. cbn beta. intros; lia. Qed.
Lemma whole_b : Forall (fun x => 0 <= fst x /\ snd x <= slen (f_b m)) (b_matching_blocks m).
Proof. pose proof b_range_facts as (A & B & C & D). eapply Forall_impl; [|exact D]. cbn beta. intros; lia. Qed.

Lemma ratio_to_unit n : match_count m <= n -> (0 <= ratio_to m n <= 1)%Q.
Proof.
  intros H. pose proof match_count_nonneg as H0. unfold ratio_to. destruct (n =? 0) eqn:E; [split; discriminate|].
  apply Z.eqb_neq in E. assert (Hn : 0 < n) by lia.
  assert (Hq : (0 < inject_Z n)%Q) by (change 0%Q with (inject_Z 0); now rewrite <- Zlt_Qlt).
  split.
  - apply Qle_shift_div_l; [exact Hq|]. rewrite Qmult_0_l. change 0%Q with (inject_Z 0). now rewrite <- Zle_Qle.
  - apply Qle_shift_div_r; [exact Hq|]. rewrite Qmult_1_l. now rewrite <- Zle_Qle.
Qed.

(** All ratios exist and lie between 0 and 1. *)
Theorem C28_ratios : exists r1 r2 r3 r4 r5,
  ratio m = Ok r1 /\ a_ratio m = Ok r2 /\ b_ratio m = Ok r3 /\ b_gap_ratio m = Ok r4 /\ b_gap_ratio_fixed m = Ok r5 /\
  Forall (fun r => 0 <= r <= 1)%Q [r1; r2; r3; r4; r5].
Proof.
  pose proof a_range_facts as (A1 & A2 & A3 & A4). pose proof b_range_facts as (B1 & B2 & B3 & B4). cbn zeta in *.
  destruct (a_junk (a_index_range m)) as (ja & Ea & Ha); try assumption.
  destruct (b_junk (b_index_range m)) as (jb & Eb & Hb); try assumption.
  destruct (a_junk (0, slen (f_a m))) as (wa & Ewa & Hwa); cbn [fst snd] in *; try (unfold slen; lia). { apply whole_a. }
  destruct (b_junk (0, slen (f_b m))) as (wb & Ewb & Hwb); cbn [fst snd] in *; try (unfold slen; lia). { apply whole_b. }
  unfold ratio, a_ratio, b_ratio, b_gap_ratio, b_gap_ratio_fixed. rewrite Ea, Eb, Ewa, Ewb. cbn [bind].
  unfold len_index_range.
  assert (Er : exists n, (if Z.max (snd (a_index_range m) - fst (a_index_range m)) (snd (b_index_range m) - fst (b_index_range m)) =?
      snd (a_index_range m) - fst (a_index_range m) then Ok ja else Ok jb) = Ok n /\
      match_count m <= Z.max (snd (a_index_range m) - fst (a_index_range m)) (snd (b_index_range m) - fst (b_index_range m)) - n).
  { destruct (Z.eqb _ _) eqn:E; [exists ja|exists jb]; (split; [reflexivity|lia]). }
  destruct Er as (n & -> & Hn). cbn [bind].
  do 5 eexists. repeat (split; [reflexivity|]).
  repeat (constructor; [apply ratio_to_unit; lia|]). constructor.
Qed.

(** The ratio is 0 exactly if nothing matches. *)
Theorem C28_positive : 0 < match_count m ->
  exists r, b_gap_ratio_fixed m = Ok r /\ (0 < r)%Q.
Proof.
  intros Hpos.
  pose proof a_range_facts as (A1 & A2 & A3 & A4). cbn zeta in *.
  destruct (a_junk (a_index_range m)) as (ja & Ea & Ha); try assumption.
  destruct (b_junk (0, slen (f_b m))) as (wb & Ewb & Hwb); cbn [fst snd] in *; try (unfold slen; lia). { apply whole_b. }
  unfold b_gap_ratio_fixed. rewrite Ea, Ewb. cbn [bind]. eexists. split; [reflexivity|]. unfold ratio_to, len_index_range.
  destruct (Z.eqb _ _) eqn:E; [apply Z.eqb_eq in E; lia|]. apply Qlt_shift_div_l.
  - change 0%Q with (inject_Z 0). rewrite <- Zlt_Qlt. lia.
  - rewrite Qmult_0_l. change 0%Q with (inject_Z 0). now rewrite <- Zlt_Qlt.
Qed.
Lemma covered_a i : covered i (a_matching_blocks m) <-> exists x, In x (f_blocks m) /\ b_a x <= i < b_a x + b_n x.
Proof.
  unfold covered, within, a_matching_blocks. split.
  - intros (r & H1 & H2). apply in_map_iff in H1 as (x & <- & Hx). apply filter_In in Hx as [Hx _]. exists x. auto.
  - intros (x & H1 & H2). exists (b_a x, b_a x + b_n x). split; [|exact H2]. apply in_map_iff. exists x. split; [reflexivity|].
    apply filter_In. split; [exact H1|]. apply negb_true_iff, Z.eqb_neq. lia.
Qed.
Lemma covered_b i : covered i (b_matching_blocks m) <-> exists x, In x (f_blocks m) /\ b_b x <= i < b_b x + b_n x.
Proof.
  unfold covered, within, b_matching_blocks. split.
  - intros (r & H1 & H2). apply in_map_iff in H1 as (x & <- & Hx). apply filter_In in Hx as [Hx _]. exists x. auto.
  - intros (x & H1 & H2). exists (b_b x, b_b x + b_n x). split; [|exact H2]. apply in_map_iff. exists x. split; [reflexivity|].
    apply filter_In. split; [exact H1|]. apply negb_true_iff, Z.eqb_neq. lia.
Qed.
Lemma block_In x : In x (f_blocks m) -> 0 < b_n x -> In x (non_empty m).
Proof. intros H1 H2. apply filter_In. split; [exact H1|]. apply negb_true_iff, Z.eqb_neq. lia. Qed.
Lemma extent_a lo hi : extent b_a (f_blocks m) lo hi -> (lo, hi) = a_index_range m \/ (non_empty m = [] /\ lo = hi).
Proof.
  pose proof a_range_facts as (R1 & R2 & R3 & R4). cbn zeta in *.
  intros [[H ->]|(H1 & H2 & H3)].
  - right. split; [|reflexivity]. unfold non_empty. revert H. generalize (f_blocks m). intros l H. induction H as [|x l Hx H IH]; [reflexivity|].
    cbn [filter]. rewrite Hx. exact IH.
  - left. rewrite Exists_exists in H1, H2. rewrite Forall_forall in H3. destruct H1 as (x & X1 & X2 & <-). destruct H2 as (y & Y1 & Y2 & <-).
    pose proof (block_In x X1 X2) as Nx. pose proof (block_In y Y1 Y2) as Ny. unfold a_index_range, a_matching_blocks in *.
    destruct non_empty_valid as [V1 V2]. destruct (non_empty m) as [|z l] eqn:E; [easy|].
    destruct (last_block_max l z V2) as [L1 L2]. { eapply Forall_impl; [|exact V1]. unfold in_bounds. tauto. }
    cbn [fst snd] in *.
    assert (G : forall w, In w (z :: l) -> In w (f_blocks m) /\ 0 < b_n w).
    { intros w Hw. rewrite <- E in Hw. apply filter_In in Hw as [W1 W2]. split; [exact W1|]. apply negb_true_iff, Z.eqb_neq in W2.
      destruct Hv as [Hv1 _]. rewrite Forall_forall in Hv1. specialize (Hv1 w W1). unfold in_bounds in Hv1. lia. }
    destruct (G z ltac:(now left)) as [Z1 Z2]. destruct (G _ L1) as [Z3 Z4]. pose proof (H3 z Z1 Z2). pose proof (H3 _ Z3 Z4).
    pose proof (L2 x Nx). pose proof (L2 y Ny). f_equal; lia.
Qed.
Lemma extent_b lo hi : extent b_b (f_blocks m) lo hi -> (lo, hi) = b_index_range m \/ (non_empty m = [] /\ lo = hi).
Proof.
  pose proof b_range_facts as (R1 & R2 & R3 & R4). cbn zeta in *.
  intros [[H ->]|(H1 & H2 & H3)].
  - right. split; [|reflexivity]. unfold non_empty. revert H. generalize (f_blocks m). intros l H. induction H as [|x l Hx H IH]; [reflexivity|].
    cbn [filter]. rewrite Hx. exact IH.
  - left. rewrite Exists_exists in H1, H2. rewrite Forall_forall in H3. destruct H1 as (x & X1 & X2 & <-). destruct H2 as (y & Y1 & Y2 & <-).
    pose proof (block_In x X1 X2) as Nx. pose proof (block_In y Y1 Y2) as Ny. unfold b_index_range, b_matching_blocks in *.
    destruct non_empty_valid as [V1 V2]. destruct (non_empty m) as [|z l] eqn:E; [easy|].
    destruct (last_block_max l z V2) as [L1 L2]. { eapply Forall_impl; [|exact V1]. unfold in_bounds. tauto. }
    cbn [fst snd] in *.
    assert (G : forall w, In w (z :: l) -> In w (f_blocks m) /\ 0 < b_n w).
    { intros w Hw. rewrite <- E in Hw. apply filter_In in Hw as [W1 W2]. split; [exact W1|]. apply negb_true_iff, Z.eqb_neq in W2.
      destruct Hv as [Hv1 _]. rewrite Forall_forall in Hv1. specialize (Hv1 w W1). unfold in_bounds in Hv1. lia. }
    destruct (G z ltac:(now left)) as [Z1 Z2]. destruct (G _ L1) as [Z3 Z4]. pose proof (H3 z Z1 Z2). pose proof (H3 _ Z3 Z4).
    pose proof (L2 x Nx). pose proof (L2 y Ny). f_equal; lia.
Qed.
Lemma idle_nil f s side bl lo n : idle_junk f s side bl lo lo n -> n = 0.
Proof.
  intros (L & _ & -> & H). destruct L as [|i L]; [reflexivity|]. destruct (proj1 (H i) (or_introl eq_refl)) as [? _]. lia.
Qed.
Lemma ranges_of_a lo hi n : extent b_a (f_blocks m) lo hi -> idle_junk (f_junk m) (f_a m) b_a (f_blocks m) lo hi n ->
  len_index_range (a_index_range m) = hi - lo /\ a_non_matching_junk m (a_index_range m) = Ok n.
Proof.
  intros He Hn. pose proof a_range_facts as (R1 & R2 & R3 & R4). cbn zeta in *. destruct a_blocks_sorted as [S1 S2].
  destruct (extent_a lo hi He) as [E|[E ->]].
  - rewrite <- E in *. cbn [fst snd] in *. split; [reflexivity|]. unfold a_non_matching_junk. eapply idle_exact; eauto using covered_a.
    intros r Hr. destruct S1 as [S1 _]. rewrite Forall_forall in R4, S1. specialize (R4 r Hr). specialize (S1 r Hr). cbv beta in *. lia.
  - apply idle_nil in Hn as ->. unfold a_index_range, a_non_matching_junk, count_non_matching_junk, a_matching_blocks. rewrite E. cbn. split; [unfold len_index_range; cbn; lia|reflexivity].
Qed.
Lemma ranges_of_b lo hi n : extent b_b (f_blocks m) lo hi -> idle_junk (f_junk m) (f_b m) b_b (f_blocks m) lo hi n ->
  len_index_range (b_index_range m) = hi - lo /\ b_non_matching_junk m (b_index_range m) = Ok n.
Proof.
  intros He Hn. pose proof b_range_facts as (R1 & R2 & R3 & R4). cbn zeta in *. destruct b_blocks_sorted as [S1 S2].
  destruct (extent_b lo hi He) as [E|[E ->]].
  - rewrite <- E in *. cbn [fst snd] in *. split; [reflexivity|]. unfold b_non_matching_junk. eapply idle_exact; eauto using covered_b.
    intros r Hr. destruct S1 as [S1 _]. rewrite Forall_forall in R4, S1. specialize (R4 r Hr). specialize (S1 r Hr). cbv beta in *. lia.
  - apply idle_nil in Hn as ->. unfold b_index_range, b_non_matching_junk, count_non_matching_junk, b_matching_blocks. rewrite E. cbn. split; [unfold len_index_range; cbn; lia|reflexivity].
Qed.
Lemma ratio_to_quotient n d : d = n -> quotient (ratio_to m d) (match_count m) n.
Proof.
  intros ->. unfold ratio_to, quotient. destruct (n =? 0) eqn:E; [apply Z.eqb_eq in E; left; split; [exact E|reflexivity]|].
  apply Z.eqb_neq in E. right. split; [exact E|]. field. intros H. apply E. unfold Qeq in H. cbn in H. lia.
Qed.

(** Every ratio is the number of matching characters divided by the length without
    the junk that is in no block; [ratio] takes the longer extent, the gap ratios
    add what does not match inside the extent of the first text.  A quotient by 0 is 0. *)
Theorem C28_values alo ahi blo bhi ja jb wa wb :
  extent b_a (f_blocks m) alo ahi -> extent b_b (f_blocks m) blo bhi ->
  idle_junk (f_junk m) (f_a m) b_a (f_blocks m) alo ahi ja ->
  idle_junk (f_junk m) (f_b m) b_b (f_blocks m) blo bhi jb ->
  idle_junk (f_junk m) (f_a m) b_a (f_blocks m) 0 (slen (f_a m)) wa ->
  idle_junk (f_junk m) (f_b m) b_b (f_blocks m) 0 (slen (f_b m)) wb ->
  let matching := zsum (map b_n (f_blocks m)) in
  exists r1 r2 r3 r4, ratio m = Ok r1 /\ a_ratio m = Ok r2 /\ b_ratio m = Ok r3 /\ b_gap_ratio m = Ok r4 /\ b_gap_ratio_fixed m = Ok r4 /\
    quotient r1 matching (if bhi - blo <=? ahi - alo then ahi - alo - ja else bhi - blo - jb) /\
    quotient r2 matching (slen (f_a m) - wa) /\ quotient r3 matching (slen (f_b m) - wb) /\
    quotient r4 matching (slen (f_b m) - wb + (ahi - alo - matching - ja)).
Proof.
  intros Xa Xb Ja Jb Wa Wb. cbn zeta. fold (match_count m).
  destruct (ranges_of_a _ _ _ Xa Ja) as [La Ea]. destruct (ranges_of_b _ _ _ Xb Jb) as [Lb Eb].
  destruct a_blocks_sorted as [SA TA]. destruct b_blocks_sorted as [SB TB].
  assert (Ewa : a_non_matching_junk m (0, slen (f_a m)) = Ok wa).
  { unfold a_non_matching_junk. eapply idle_exact; eauto using covered_a; [|lia|lia]. intros r Hr. pose proof whole_a as W.
    destruct SA as [S1 _]. rewrite Forall_forall in W, S1. specialize (W r Hr). specialize (S1 r Hr). cbv beta in *. lia. }
  assert (Ewb : b_non_matching_junk m (0, slen (f_b m)) = Ok wb).
  { unfold b_non_matching_junk. eapply idle_exact; eauto using covered_b; [|lia|lia]. intros r Hr. pose proof whole_b as W.
    destruct SB as [S1 _]. rewrite Forall_forall in W, S1. specialize (W r Hr). specialize (S1 r Hr). cbv beta in *. lia. }
  pose proof a_range_facts as (A1 & A2 & A3 & A4). cbn zeta in *.
  destruct (a_junk (a_index_range m)) as (ja' & Ea' & Ha); try assumption. rewrite Ea in Ea'. injection Ea' as <-.
  unfold len_index_range in La, Lb.
  unfold ratio, a_ratio, b_ratio, b_gap_ratio, b_gap_ratio_fixed. rewrite Ea, Eb, Ewa, Ewb. cbn [bind]. unfold len_index_range. rewrite La, Lb in *.
  rewrite (Z.max_r 0) by lia.
  exists (ratio_to m (if bhi - blo <=? ahi - alo then ahi - alo - ja else bhi - blo - jb)). do 3 eexists.
  split; [|repeat (split; [reflexivity|]); repeat split; apply ratio_to_quotient; lia].
  destruct (bhi - blo <=? ahi - alo) eqn:E; [apply Z.leb_le in E|apply Z.leb_gt in E].
  - rewrite Z.max_l by lia. rewrite Z.eqb_refl. reflexivity.
  - rewrite Z.max_r by lia. destruct (Z.eqb_spec (bhi - blo) (ahi - alo)); [lia|reflexivity].
Qed.
End Ratios.

Example C28_values_ex : let m := mkF (u "abc, def. x") (u "abc def x y") [(0, 0, 3); (5, 4, 3); (11, 11, 0)] (default_isjunk ascii_alpha) in
  extent b_a (f_blocks m) 0 8 /\ extent b_b (f_blocks m) 0 7 /\
  idle_junk (f_junk m) (f_a m) b_a (f_blocks m) 0 8 0 /\ idle_junk (f_junk m) (f_a m) b_a (f_blocks m) 0 11 2 /\
  a_ratio m = Ok (6 # 9)%Q.
Proof.
  cbn zeta. split; [right; split; [|split]|split; [right; split; [|split]|]].
  - left. cbn. lia.
  - right. left. cbn. lia.
  - lists; cbn; lia.
  - left. cbn. lia.
  - right. left. cbn. lia.
  - lists; cbn; lia.
  - split; [|split; [|reflexivity]].
    + exists []. split; [constructor|]. split; [reflexivity|]. intros i. split; [easy|]. intros (H1 & H2 & H3). exfalso.
      assert (H : i = 3 \/ i = 4 \/ ((0 <= i < 3) \/ (5 <= i < 8))) by lia. destruct H as [->|[->|[H|H]]]; try discriminate H2; apply H3.
      * exists (0, 0, 3). split; [now left|]. cbn. lia.
      * exists (5, 4, 3). split; [right; now left|]. cbn. lia.
    + exists [8; 9]. split; [repeat constructor; cbn; lia|]. split; [reflexivity|]. intros i. split.
      * intros [<-|[<-|[]]]; (split; [lia|split; [reflexivity|]]); intros (x & [<-|[<-|[<-|[]]]] & Hx); cbn in Hx; lia.
      * intros (H1 & H2 & H3). assert (H : i = 3 \/ i = 4 \/ i = 8 \/ i = 9 \/ i = 10 \/ ((0 <= i < 3) \/ (5 <= i < 8))) by lia.
        destruct H as [->|[->|[->|[->|[->|[H|H]]]]]]; try discriminate H2; try (cbn; tauto); exfalso; apply H3.
        -- exists (0, 0, 3). split; [now left|]. cbn. lia.
        -- exists (5, 4, 3). split; [right; now left|]. cbn. lia.
Qed.
Example C28_ex : let m := mkF (u "abc, def. x") (u "abc def x y") [(0, 0, 3); (5, 4, 3); (11, 11, 0)] (default_isjunk ascii_alpha) in
  valid (f_a m) (f_b m) (f_blocks m) /\ ratio m = Ok (6 # 8)%Q /\ b_gap_ratio m = Ok (6 # 13)%Q.
Proof.
  cbn zeta. split; [split; lists; cbv; intuition discriminate|]. split; reflexivity.
Qed.

(* ---------------------------------------------------------------- *)
(** ** C29: splitting a match *)

(** a block pairs equal characters *)
Definition pairs (a b : str) (x : block) : Prop :=
  forall k, 0 <= k < b_n x -> exists c, py_at a (b_a x + k) = Ok c /\ py_at b (b_b x + k) = Ok c.
(** [index] cuts a block in [a] *)
Definition cut_a (index : Z) (x : block) : Prop := b_a x < index < b_a x + b_n x.
Definition cut_b (index : Z) (x : block) : Prop := b_b x < index < b_b x + b_n x.

Lemma zsum_ext {A} (f g : A -> Z) l : (forall x, In x l -> f x = g x) -> zsum (map f l) = zsum (map g l).
Proof. intros H. f_equal. apply map_ext_in. exact H. Qed.
Lemma zsum_filter {A} (p : A -> bool) (f : A -> Z) l :
  zsum (map f (filter p l)) = zsum (map (fun x => if p x then f x else 0) l).
Proof. unfold zsum. induction l as [|x l IH]; [reflexivity|]. cbn. destruct (p x); cbn; lia. Qed.
Lemma zsum_add {A} (f g : A -> Z) l : zsum (map f l) + zsum (map g l) = zsum (map (fun x => f x + g x) l).
Proof. unfold zsum. induction l as [|x l IH]; [reflexivity|]. cbn. lia. Qed.

Lemma py_at_pos {A} (s : list A) i : 0 <= i -> py_at s i = match nth_error s (Z.to_nat i) with Some c => Ok c | None => Err IndexError end.
Proof. intros H. unfold py_at. destruct (i <? 0) eqn:E; [apply Z.ltb_lt in E; lia|]. now rewrite E. Qed.
Lemma py_slice_pos {A} (s : list A) i j : 0 <= i -> 0 <= j ->
  py_slice s i j = firstn (Z.to_nat j - Z.to_nat i) (skipn (Z.to_nat i) s).
Proof.
  intros Hi Hj. unfold py_slice. cbn zeta. destruct (j <? 0) eqn:E1; [apply Z.ltb_lt in E1; lia|].
  destruct (i <? 0) eqn:E2; [apply Z.ltb_lt in E2; lia|]. f_equal. lia.
Qed.
Lemma at_pre {A} (s : list A) i j : 0 <= j -> 0 <= i < j -> py_at (py_slice s 0 j) i = py_at s i.
Proof.
  intros Hj Hi. rewrite py_slice_pos by lia. rewrite !py_at_pos by lia. cbn [Z.to_nat skipn]. rewrite Nat.sub_0_r.
  enough (E : nth_error (firstn (Z.to_nat j) s) (Z.to_nat i) = nth_error s (Z.to_nat i)) by now rewrite E.
  rewrite <- (firstn_skipn (Z.to_nat j) s) at 2.
  destruct (Nat.lt_ge_cases (Z.to_nat i) (length (firstn (Z.to_nat j) s))) as [H|H].
  - symmetry. now apply nth_error_app1.
  - rewrite firstn_length in H. assert (length s <= Z.to_nat i)%nat by lia.
    rewrite firstn_skipn. transitivity (@None A); [|symmetry]; apply nth_error_None; [rewrite firstn_length|]; lia.
Qed.
Lemma nth_skipn {A} n (s : list A) i : nth_error (skipn n s) i = nth_error s (n + i).
Proof.
  revert s. induction n as [|n IH]; intros s; [reflexivity|]. destruct s as [|x s]; cbn; [destruct i; reflexivity|apply IH].
Qed.
Lemma at_post {A} (s : list A) i j : 0 <= j -> 0 <= i -> py_at (py_from s j) i = py_at s (j + i).
Proof.
  intros Hj Hi. unfold py_from. rewrite py_slice_pos by (unfold slen; lia). rewrite !py_at_pos by lia.
  rewrite firstn_all2. 2: { rewrite skipn_length. unfold slen. lia. }
  rewrite nth_skipn. replace (Z.to_nat (j + i)) with (Z.to_nat j + Z.to_nat i)%nat by lia. reflexivity.
Qed.

Lemma non_empty_facts m : valid (f_a m) (f_b m) (f_blocks m) ->
  Forall (fun x => 0 < b_n x) (non_empty m).
Proof.
  intros [H _]. rewrite Forall_forall in *. intros x Hx. unfold non_empty in Hx. apply filter_In in Hx as [Hx E].
  specialize (H x Hx). apply negb_true_iff, Z.eqb_neq in E. unfold in_bounds in H. lia.
Qed.

(** a_split_at *)
Section SplitA.
Variables (dj : junk_fn) (m : fmr) (index : Z).
Hypothesis Hv : valid (f_a m) (f_b m) (f_blocks m).
Hypothesis Hi : 0 <= index.
Notation pre := (fst (a_split_at dj m index)).
Notation post := (snd (a_split_at dj m index)).

(* the early exit is a special case of the general formula *)
Lemma a_split_general :
  f_blocks pre = map (fun x => (b_a x, b_b x, Z.min (b_n x) (index - b_a x)))
              (filter (fun x => b_a x <? index) (non_empty m)) /\
  f_blocks post = map (fun x => (Z.max 0 (b_a x - index), b_b x,
                           if index <=? b_a x then b_n x else b_n x + b_a x - index))
              (filter (fun x => index <? b_a x + b_n x) (non_empty m)).
Proof.
  unfold a_split_at. pose proof (non_empty_facts m Hv) as Hp. destruct (non_empty_valid m Hv) as [H1 H2].
  unfold a_index_range. destruct (non_empty m) as [|x l] eqn:E; [split; reflexivity|].
  cbn [snd]. destruct (last_block_max l x H2) as [L1 L2]. { eapply Forall_impl; [|exact H1]. unfold in_bounds. tauto. }
  destruct (_ <=? index) eqn:Ei; [|split; reflexivity]. apply Z.leb_le in Ei. cbn [fst snd f_blocks].
  assert (Hall : forall y, In y (x :: l) -> b_a y + b_n y <= index /\ 0 < b_n y).
  { intros y Hy. specialize (L2 y Hy). rewrite Forall_forall in Hp. specialize (Hp y Hy). cbv beta in Hp. lia. }
  revert Hall. generalize (x :: l) as k. clear. intros k. induction k as [|y k IH]; intros Hall; [split; reflexivity|].
  destruct (IH ltac:(intros; apply Hall; now right)) as [I1 I2]. destruct (Hall y ltac:(now left)) as [A B].
  cbn [filter]. split.
  - destruct (b_a y <? index) eqn:E; [|apply Z.ltb_ge in E; lia]. cbn [map]. rewrite <- I1. f_equal.
    rewrite Z.min_l by lia. destruct y as [[? ?] ?]. reflexivity.
  - destruct (index <? b_a y + b_n y) eqn:E; [apply Z.ltb_lt in E; lia|]. exact I2.
Qed.
Lemma a_split_texts : f_a pre = py_slice (f_a m) 0 index /\ f_a post = py_from (f_a m) index /\ f_b pre = f_b m /\ f_b post = f_b m.
Proof. unfold a_split_at. destruct (non_empty m); [auto|]. destruct (_ <=? index); auto. Qed.

(** nothing lost or duplicated *)
Theorem C29_a_count : match_count pre + match_count post = match_count m.
Proof.
  unfold match_count at 1 2. destruct a_split_general as [-> ->]. rewrite !map_map. rewrite (match_count_ne m Hv).
  rewrite !zsum_filter, zsum_add. apply zsum_ext. intros x Hx.
  pose proof (non_empty_facts m Hv) as Hp. rewrite Forall_forall in Hp. specialize (Hp x Hx). cbv beta in Hp.
  change (b_n (b_a x, b_b x, Z.min (b_n x) (index - b_a x))) with (Z.min (b_n x) (index - b_a x)).
  match goal with |- context [b_n (?p, ?q, ?r)] => change (b_n (p, q, r)) with r end.
  destruct (b_a x <? index) eqn:E1; [apply Z.ltb_lt in E1|apply Z.ltb_ge in E1];
    (destruct (index <? b_a x + b_n x) eqn:E2; [apply Z.ltb_lt in E2|apply Z.ltb_ge in E2]);
    try (destruct (index <=? b_a x) eqn:E3; [apply Z.leb_le in E3|apply Z.leb_gt in E3]); lia.
Qed.
Lemma non_empty_pairs : Forall (pairs (f_a m) (f_b m)) (f_blocks m) -> Forall (pairs (f_a m) (f_b m)) (non_empty m).
Proof. intros H. rewrite Forall_forall in *. intros x Hx. apply filter_In in Hx as [Hx _]. auto. Qed.
Lemma non_empty_bounds : Forall (in_bounds (f_a m) (f_b m)) (non_empty m).
Proof. apply non_empty_valid. exact Hv. Qed.

(** the blocks before the split still pair equal characters *)
Theorem C29_a_pre : Forall (pairs (f_a m) (f_b m)) (f_blocks m) -> Forall (pairs (f_a pre) (f_b pre)) (f_blocks pre).
Proof.
  intros Hp. apply non_empty_pairs in Hp. pose proof non_empty_bounds as Hb.
  destruct a_split_general as [-> _]. destruct a_split_texts as (-> & _ & -> & _).
  rewrite Forall_forall in *. intros y Hy. apply in_map_iff in Hy as (x & <- & Hx). apply filter_In in Hx as [Hx Hlt].
  apply Z.ltb_lt in Hlt. specialize (Hp x Hx). specialize (Hb x Hx). unfold in_bounds in Hb.
  intros k Hk. unfold b_a, b_b, b_n in *. cbn [fst snd] in *.
  destruct (Hp k) as (c & C1 & C2); [unfold b_n; lia|]. exists c. split; [|exact C2]. rewrite at_pre by lia. exact C1.
Qed.
(** so do those after it, unless the index cuts one *)
Theorem C29_a_post : Forall (pairs (f_a m) (f_b m)) (f_blocks m) -> Forall (fun x => ~ cut_a index x) (f_blocks m) ->
  Forall (pairs (f_a post) (f_b post)) (f_blocks post).
Proof.
  intros Hp Hc. apply non_empty_pairs in Hp. pose proof non_empty_bounds as Hb.
  destruct a_split_general as [_ ->]. destruct a_split_texts as (_ & -> & _ & ->).
  rewrite Forall_forall in *. intros y Hy. apply in_map_iff in Hy as (x & <- & Hx). apply filter_In in Hx as [Hx Hlt].
  apply Z.ltb_lt in Hlt. specialize (Hp x Hx). specialize (Hb x Hx). unfold in_bounds in Hb.
  assert (Hcx : ~ cut_a index x) by (apply Hc; unfold non_empty in Hx; now apply filter_In in Hx).
  unfold cut_a in Hcx. assert (Hge : index <= b_a x) by lia.
  intros k Hk. unfold b_a, b_b, b_n in *. cbn [fst snd] in *.
  destruct (index <=? fst (fst x)) eqn:E; [|apply Z.leb_gt in E; lia].
  destruct (Hp k) as (c & C1 & C2); [unfold b_n; lia|]. exists c. split; [|exact C2]. rewrite at_post by lia.
  replace (index + (Z.max 0 (fst (fst x) - index) + k)) with (fst (fst x) + k) by lia. exact C1.
Qed.
End SplitA.

(** The other side of a cut block is not moved: its characters are paired wrongly. *)
Theorem C29_a_post_refuted : exists m index dj, valid (f_a m) (f_b m) (f_blocks m) /\
  Forall (pairs (f_a m) (f_b m)) (f_blocks m) /\ 0 <= index <= slen (f_a m) /\
  let post := snd (a_split_at dj m index) in ~ Forall (pairs (f_a post) (f_b post)) (f_blocks post).
Proof.
  exists (mkF (u "abcd") (u "abcd") [(0, 0, 4)] dot_is_junk), 2, dot_is_junk.
  split; [split; lists; cbv; intuition discriminate|]. split; [|split; [cbn; lia|]].
  - constructor; [|constructor]. intros k Hk. unfold b_n, b_a, b_b in *. cbn [fst snd] in *.
    assert (k = 0 \/ k = 1 \/ k = 2 \/ k = 3) as [->|[->|[->| ->]]] by lia; eexists; (split; reflexivity).
  - cbn zeta. intros H. inversion H as [|? ? Hx _]; subst. destruct (Hx 0) as (c & C1 & C2); [cbn; lia|].
    cbv in C1, C2. rewrite <- C1 in C2. discriminate C2.
Qed.

(** b_split_at *)
Section SplitB.
Variables (dj : junk_fn) (m : fmr) (index : Z).
Hypothesis Hv : valid (f_a m) (f_b m) (f_blocks m).
Hypothesis Hi : 0 <= index.
Notation pre := (fst (b_split_at dj m index)).
Notation post := (snd (b_split_at dj m index)).
Lemma b_split_general :
  f_blocks pre = map (fun x => (b_a x, b_b x, Z.min (b_n x) (index - b_b x)))
              (filter (fun x => b_b x <? index) (non_empty m)) /\
  f_blocks post = map (fun x => (b_a x, Z.max 0 (b_b x - index),
                           if index <=? b_b x then b_n x else b_n x + b_b x - index))
              (filter (fun x => index <? b_b x + b_n x) (non_empty m)).
Proof.
  unfold b_split_at. pose proof (non_empty_facts m Hv) as Hp. destruct (non_empty_valid m Hv) as [H1 H2].
  unfold b_index_range. destruct (non_empty m) as [|x l] eqn:E; [split; reflexivity|].
  cbn [snd]. destruct (last_block_max l x H2) as [L1 L2]. { eapply Forall_impl; [|exact H1]. unfold in_bounds. tauto. }
  destruct (_ <=? index) eqn:Ei; [|split; reflexivity]. apply Z.leb_le in Ei. cbn [fst snd f_blocks].
  assert (Hall : forall y, In y (x :: l) -> b_b y + b_n y <= index /\ 0 < b_n y).
  { intros y Hy. specialize (L2 y Hy). rewrite Forall_forall in Hp. specialize (Hp y Hy). cbv beta in Hp. lia. }
  revert Hall. generalize (x :: l) as k. clear. intros k. induction k as [|y k IH]; intros Hall; [split; reflexivity|].
  destruct (IH ltac:(intros; apply Hall; now right)) as [I1 I2]. destruct (Hall y ltac:(now left)) as [A B].
  cbn [filter]. split.
  - destruct (b_b y <? index) eqn:E; [|apply Z.ltb_ge in E; lia]. cbn [map]. rewrite <- I1. f_equal.
    rewrite Z.min_l by lia. destruct y as [[? ?] ?]. reflexivity.
  - destruct (index <? b_b y + b_n y) eqn:E; [apply Z.ltb_lt in E; lia|]. exact I2.
Qed.
Lemma b_split_texts : f_b pre = py_slice (f_b m) 0 index /\ f_b post = py_from (f_b m) index /\ f_a pre = f_a m /\ f_a post = f_a m.
Proof. unfold b_split_at. destruct (non_empty m); [auto|]. destruct (_ <=? index); auto. Qed.
Theorem C29_b_count : match_count pre + match_count post = match_count m.
Proof.
  unfold match_count at 1 2. destruct b_split_general as [-> ->]. rewrite !map_map. rewrite (match_count_ne m Hv).
  rewrite !zsum_filter, zsum_add. apply zsum_ext. intros x Hx.
  pose proof (non_empty_facts m Hv) as Hp. rewrite Forall_forall in Hp. specialize (Hp x Hx). cbv beta in Hp.
  change (b_n (b_a x, b_b x, Z.min (b_n x) (index - b_b x))) with (Z.min (b_n x) (index - b_b x)).
  match goal with |- context [b_n (?p, ?q, ?r)] => change (b_n (p, q, r)) with r end.
  destruct (b_b x <? index) eqn:E1; [apply Z.ltb_lt in E1|apply Z.ltb_ge in E1];
    (destruct (index <? b_b x + b_n x) eqn:E2; [apply Z.ltb_lt in E2|apply Z.ltb_ge in E2]);
    try (destruct (index <=? b_b x) eqn:E3; [apply Z.leb_le in E3|apply Z.leb_gt in E3]); lia.
Qed.
Theorem C29_b_pre : Forall (pairs (f_a m) (f_b m)) (f_blocks m) -> Forall (pairs (f_a pre) (f_b pre)) (f_blocks pre).
Proof.
  intros Hp. apply non_empty_pairs in Hp. pose proof (non_empty_bounds m Hv) as Hb.
  destruct b_split_general as [-> _]. destruct b_split_texts as (-> & _ & -> & _).
  rewrite Forall_forall in *. intros y Hy. apply in_map_iff in Hy as (x & <- & Hx). apply filter_In in Hx as [Hx Hlt].
  apply Z.ltb_lt in Hlt. specialize (Hp x Hx). specialize (Hb x Hx). unfold in_bounds in Hb.
  intros k Hk. unfold b_a, b_b, b_n in *. cbn [fst snd] in *.
  destruct (Hp k) as (c & C1 & C2); [unfold b_n; lia|]. exists c. split; [exact C1|]. rewrite at_pre by lia. exact C2.
Qed.
Theorem C29_b_post : Forall (pairs (f_a m) (f_b m)) (f_blocks m) -> Forall (fun x => ~ cut_b index x) (f_blocks m) ->
  Forall (pairs (f_a post) (f_b post)) (f_blocks post).
Proof.
  intros Hp Hc. apply non_empty_pairs in Hp. pose proof (non_empty_bounds m Hv) as Hb.
  destruct b_split_general as [_ ->]. destruct b_split_texts as (_ & -> & _ & ->).
  rewrite Forall_forall in *. intros y Hy. apply in_map_iff in Hy as (x & <- & Hx). apply filter_In in Hx as [Hx Hlt].
  apply Z.ltb_lt in Hlt. specialize (Hp x Hx). specialize (Hb x Hx). unfold in_bounds in Hb.
  assert (Hcx : ~ cut_b index x) by (apply Hc; unfold non_empty in Hx; now apply filter_In in Hx).
  unfold cut_b in Hcx. assert (Hge : index <= b_b x) by lia.
  intros k Hk. unfold b_a, b_b, b_n in *. cbn [fst snd] in *.
  destruct (index <=? snd (fst x)) eqn:E; [|apply Z.leb_gt in E; lia].
  destruct (Hp k) as (c & C1 & C2); [unfold b_n; lia|]. exists c. split; [exact C1|]. rewrite at_post by lia.
  replace (index + (Z.max 0 (snd (fst x) - index) + k)) with (snd (fst x) + k) by lia. exact C2.
Qed.
End SplitB.

Theorem C29_b_post_refuted : exists m index dj, valid (f_a m) (f_b m) (f_blocks m) /\
  Forall (pairs (f_a m) (f_b m)) (f_blocks m) /\ 0 <= index <= slen (f_b m) /\
  let post := snd (b_split_at dj m index) in ~ Forall (pairs (f_a post) (f_b post)) (f_blocks post).
Proof.
  exists (mkF (u "abcd") (u "abcd") [(0, 0, 4)] dot_is_junk), 2, dot_is_junk.
  split; [split; lists; cbv; intuition discriminate|]. split; [|split; [cbn; lia|]].
  - constructor; [|constructor]. intros k Hk. unfold b_n, b_a, b_b in *. cbn [fst snd] in *.
    assert (k = 0 \/ k = 1 \/ k = 2 \/ k = 3) as [->|[->|[->| ->]]] by lia; eexists; (split; reflexivity).
  - cbn zeta. intros H. inversion H as [|? ? Hx _]; subst. destruct (Hx 0) as (c & C1 & C2); [cbn; lia|].
    cbv in C1, C2. rewrite <- C1 in C2. discriminate C2.
Qed.

Example C29_ex : let m := mkF (u "xabcyde") (u "abcde") [(1, 0, 3); (5, 3, 2)] dot_is_junk in
  f_blocks (fst (a_split_at dot_is_junk m 4)) = [(1, 0, 3)] /\ f_blocks (snd (a_split_at dot_is_junk m 4)) = [(1, 3, 2)] /\
  Forall (fun x => ~ cut_a 4 x) (f_blocks m) /\ valid (f_a m) (f_b m) (f_blocks m).
Proof.
  cbn zeta. split; [reflexivity|]. split; [reflexivity|]. split; [|split]; lists; cbv; intuition discriminate.
Qed.

Print Assumptions C26_filter.
Print Assumptions C26_default.
Print Assumptions C27_invert.
Print Assumptions C27_sorted.
Print Assumptions C27_refuted.
Print Assumptions C28_ratios.
Print Assumptions C28_positive.
Print Assumptions C28_values.
Print Assumptions C29_a_count.
Print Assumptions C29_a_pre.
Print Assumptions C29_a_post.
Print Assumptions C29_a_post_refuted.
Print Assumptions C29_b_count.
Print Assumptions C29_b_pre.
Print Assumptions C29_b_post.
Print Assumptions C29_b_post_refuted.
