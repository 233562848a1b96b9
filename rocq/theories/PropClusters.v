(** C15: clustering of match ranges *)
From Coq Require Import Permutation Sorted.
From Verif Require Import Base ModelJoined ModelClusters.
Open Scope Z_scope.

(* ---------------------------------------------------------------- *)
(** ** sorting *)
Section SortFacts.
Context {A : Type}.
Variable leb : A -> A -> bool.
Hypothesis total : forall a b, leb a b = true \/ leb b a = true.
Hypothesis trans : forall a b c, leb a b = true -> leb b c = true -> leb a c = true.
Definition le (a b : A) : Prop := leb a b = true.

Lemma insert_perm x l : Permutation (insert leb x l) (x :: l).
Proof.
  induction l as [|y l IH]; cbn; [reflexivity|]. destruct (leb x y); [reflexivity|].
  rewrite IH. apply perm_swap.
Qed.
Lemma sort_perm l : Permutation (sort leb l) l.
Proof. induction l as [|x l IH]; cbn; [reflexivity|]. rewrite insert_perm. now constructor. Qed.
Lemma insert_sorted x l : StronglySorted le l -> StronglySorted le (insert leb x l).
Proof.
  induction 1 as [|y l Hs IH Hf]; cbn.
  - repeat constructor.
  - destruct (leb x y) eqn:E.
    + constructor; [constructor; assumption|]. constructor; [exact E|].
      eapply Forall_impl; [|exact Hf]. intros z Hz. eapply trans; eassumption.
    + constructor; [exact IH|]. assert (Hyx : leb y x = true) by (destruct (total x y); congruence).
      eapply Permutation_Forall; [symmetry; apply insert_perm|]. constructor; assumption.
Qed.
Lemma sort_sorted l : StronglySorted le (sort leb l).
Proof. induction l as [|x l IH]; cbn; [constructor|]. now apply insert_sorted. Qed.
Lemma sort_id l : StronglySorted le l -> sort leb l = l.
Proof.
  induction 1 as [|x l Hs IH Hf]; [reflexivity|].
  change (sort leb (x :: l)) with (insert leb x (sort leb l)). rewrite IH.
  destruct l as [|y l]; [reflexivity|]. cbn. inversion Hf; subst. now rewrite H1.
Qed.
End SortFacts.

Lemma range_total a b : range_leb a b = true \/ range_leb b a = true.
Proof.
  unfold range_leb. rewrite !orb_true_iff, !andb_true_iff, !Z.ltb_lt, !Z.eqb_eq, !Z.leb_le. lia.
Qed.
Lemma range_trans a b c : range_leb a b = true -> range_leb b c = true -> range_leb a c = true.
Proof.
  unfold range_leb. rewrite !orb_true_iff, !andb_true_iff, !Z.ltb_lt, !Z.eqb_eq, !Z.leb_le. lia.
Qed.
Definition r_le := le range_leb.

(* ---------------------------------------------------------------- *)
(** ** Specification *)

(** position of the first start and of the last end of ranges given in order *)
Definition first_start (c : list irange) : Z := match c with [] => 0 | r :: _ => fst r end.
Definition last_end (c : list irange) : Z := match rev c with [] => 0 | r :: _ => snd r end.
(** two neighbouring groups belong together *)
Definition close (a b : list irange) : Prop :=
  let gap := if last_end a <=? first_start b then first_start b - last_end a
             else first_start a - last_end b in
  gap <= Z.max (last_end a - first_start a) (last_end b - first_start b) + 10.
(** a group formed by joining neighbours that belong together *)
Inductive Linked : list irange -> Prop :=
| Linked_one r : Linked [r]
| Linked_join a b : Linked a -> Linked b -> close a b -> Linked (a ++ b).
Fixpoint apart (l : list (list irange)) : Prop :=
  match l with
  | a :: (b :: _) as l' => ~ close a b /\ apart l'
  | _ => True
  end.
(** true extent of a set of ranges: nothing sticks out and both ends are reached *)
Definition extent (c : list irange) (n : Z) : Prop :=
  exists s e, n = e - s /\ Forall (fun r => s <= fst r /\ snd r <= e) c /\
    Exists (fun r => fst r = s) c /\ Exists (fun r => snd r = e) c.

(* ---------------------------------------------------------------- *)
Lemma c_end_eq c : c_end c = last_end c.
Proof.
  unfold c_end, last_end. induction c as [|r c IH] using rev_ind; [reflexivity|].
  rewrite rev_app_distr, last_last. reflexivity.
Qed.
Lemma c_start_eq c : c_start c = first_start c.
Proof. destruct c; reflexivity. Qed.
Lemma should_merge_close a b : should_merge a b = true <-> close a b.
Proof.
  unfold should_merge, gap_to, c_length, close. rewrite !c_end_eq, !c_start_eq, Z.leb_le, Z.geb_leb. reflexivity.
Qed.
Lemma merge_with_app a b : StronglySorted r_le (a ++ b) -> merge_with a b = a ++ b.
Proof. intros H. unfold merge_with, sorted_ranges. now apply sort_id. Qed.
Lemma SS_app_l {A} (R : A -> A -> Prop) a b : StronglySorted R (a ++ b) -> StronglySorted R a.
Proof.
  induction a as [|x a IH]; [constructor|]. cbn. inversion 1; subst. constructor; [auto|].
  now apply Forall_app in H3.
Qed.
Lemma SS_app_r {A} (R : A -> A -> Prop) a b : StronglySorted R (a ++ b) -> StronglySorted R b.
Proof. induction a as [|x a IH]; [auto|]. cbn. inversion 1; subst. auto. Qed.

Lemma round_spec l : forall cur, StronglySorted r_le (cur ++ concat l) -> Linked cur -> Forall Linked l ->
  let (r, b) := merge_round cur l in
  concat r = cur ++ concat l /\ Forall Linked r /\ r <> [] /\
  (if b then (length r <= length l)%nat else r = cur :: l /\ apart (cur :: l)).
Proof.
  induction l as [|c l IH]; intros cur Hs Hl Hf; cbn [merge_round].
  - cbn. rewrite app_nil_r. split; [reflexivity|]. split; [constructor; auto|]. split; [discriminate|]. auto.
  - inversion Hf as [|? ? Hc Hf']; subst. cbn [concat] in Hs.
    destruct (should_merge cur c) eqn:E.
    + apply should_merge_close in E.
      assert (Em : merge_with cur c = cur ++ c).
      { apply merge_with_app. rewrite app_assoc in Hs. now apply SS_app_l in Hs. }
      rewrite Em. specialize (IH (cur ++ c)). rewrite <- app_assoc in IH.
      specialize (IH Hs (Linked_join _ _ Hl Hc E) Hf').
      destruct (merge_round (cur ++ c) l) as [r b]. cbn [fst].
      destruct IH as (I1 & I2 & I3 & I4). cbn [concat]. rewrite I1.
      split; [reflexivity|]. split; [exact I2|]. split; [exact I3|]. cbn [length].
      destruct b; [unfold cluster in *; lia|]. destruct I4 as [-> _]. cbn [length]. unfold cluster, irange in *. lia.
    + assert (Hn : ~ close cur c) by (rewrite <- should_merge_close; congruence).
      specialize (IH c (SS_app_r _ _ _ Hs) Hc Hf').
      destruct (merge_round c l) as [r b]. destruct IH as (I1 & I2 & I3 & I4).
      cbn [concat]. rewrite I1. split; [reflexivity|]. split; [constructor; auto|]. split; [discriminate|].
      destruct b; cbn [length]; [lia|]. destruct I4 as [-> I4]. split; [reflexivity|].
      split; [exact Hn|exact I4].
Qed.
Lemma merge_related_spec fuel : forall l, StronglySorted r_le (concat l) -> Forall Linked l -> l <> [] ->
  (length l <= S fuel)%nat ->
  exists r, merge_related fuel l = Ok r /\ concat r = concat l /\ Forall Linked r /\ apart r /\ r <> [].
Proof.
  induction fuel as [|fuel IH]; intros [|c l] Hs Hf Hn Hlen; try congruence;
    inversion Hf as [|? ? Hc Hf']; subst; cbn [merge_related]; pose proof (round_spec l c Hs Hc Hf') as R;
    destruct (merge_round c l) as [r b]; destruct R as (R1 & R2 & R3 & R4); destruct b.
  - destruct r; [congruence|]. cbn [length] in *. unfold cluster, irange in *. lia.
  - exists r. destruct R4 as [-> R4]. auto 6.
  - destruct (IH r) as (r' & A1 & A2 & A3 & A4 & A5); auto.
    + rewrite R1. exact Hs.
    + cbn [length] in *. unfold cluster, irange in *. lia.
    + exists r'. split; [exact A1|]. split; [rewrite A2; exact R1|]. auto.
  - exists r. destruct R4 as [-> R4]. auto 6.
Qed.

Lemma concat_singles {A} (l : list A) : concat (map (fun r => [r]) l) = l.
Proof. induction l; cbn; congruence. Qed.

(** Merging always ends.  The clusters are consecutive parts of the sorted ranges
    (so nothing is lost or duplicated), each of them is formed by joining ranges
    that belong together, and no two neighbours belong together any more. *)
Theorem C15_clusters (l : list irange) : l <> [] ->
  exists cs, merge_related (length l) (map (fun r => sorted_ranges [r]) (sorted_ranges l)) = Ok cs /\
    StronglySorted r_le (concat cs) /\ Permutation (concat cs) l /\
    Forall Linked cs /\ apart cs.
Proof.
  intros Hl. pose proof (sort_perm range_leb l) as Hp.
  assert (Hs : StronglySorted r_le (sorted_ranges l)).
  { apply sort_sorted; [apply range_total|apply range_trans]. }
  change (map (fun r => sorted_ranges [r]) (sorted_ranges l)) with (map (fun r => [r]) (sorted_ranges l)).
  destruct (merge_related_spec (length l) (map (fun r => [r]) (sorted_ranges l))) as (cs & A1 & A2 & A3 & A4 & A5).
  - now rewrite concat_singles.
  - apply Forall_forall. intros c Hc. apply in_map_iff in Hc as (r & <- & _). constructor.
  - intros E. apply map_eq_nil in E. unfold sorted_ranges in E. rewrite E in Hp. now apply Permutation_nil in Hp.
  - rewrite map_length. unfold sorted_ranges. rewrite (Permutation_length Hp). lia.
  - rewrite concat_singles in A2. exists cs. split; [exact A1|]. rewrite A2. split; [exact Hs|]. split; [exact Hp|]. auto.
Qed.

Definition wide (a b : cluster) : bool := c_length b <=? c_length a.
Lemma wide_total a b : wide a b = true \/ wide b a = true.
Proof. unfold wide. rewrite !Z.leb_le. lia. Qed.
Lemma wide_trans a b c : wide a b = true -> wide b c = true -> wide a c = true.
Proof. unfold wide. rewrite !Z.leb_le. lia. Qed.

Lemma perm_concat {A} (a b : list (list A)) : Permutation a b -> Permutation (concat a) (concat b).
Proof.
  induction 1; cbn.
  - reflexivity.
  - now apply Permutation_app_head.
  - rewrite !app_assoc. apply Permutation_app_tail, Permutation_app_comm.
  - etransitivity; eassumption.
Qed.
(** The selection: one of these clusters, none has a greater length (last end
    minus first start); the others' ranges are returned as unselected, sorted. *)
Theorem C15_select (l : list irange) : (2 <= length l)%nat ->
  exists sel unsel cs, select_index_ranges l = Ok (sel, unsel) /\
    StronglySorted r_le (concat cs) /\ Permutation (concat cs) l /\ Forall Linked cs /\ apart cs /\
    In sel cs /\
    (forall c, In c cs -> last_end c - first_start c <= last_end sel - first_start sel) /\
    Permutation (sel ++ unsel) l /\ StronglySorted r_le unsel.
Proof.
  intros Hl. destruct (C15_clusters l) as (cs & A1 & A2 & A3 & A4 & A5).
  { intros ->. cbn in Hl. lia. }
  unfold select_index_ranges. replace (Nat.leb (length l) 1) with false by (symmetry; apply Nat.leb_gt; lia).
  assert (E : length (map (fun r => sorted_ranges [r]) (sorted_ranges l)) = length l).
  { rewrite map_length. apply Permutation_length, sort_perm. }
  rewrite E, A1. cbn [bind]. fold wide. change (fun a b : cluster => c_length b <=? c_length a) with wide.
  pose proof (sort_perm wide cs) as Hp. pose proof (sort_sorted wide wide_total wide_trans cs) as Hs.
  destruct (sort wide cs) as [|sel rest] eqn:Es.
  - apply Permutation_nil in Hp. subst cs. cbn in A3. apply Permutation_nil in A3. subst l. cbn in Hl. lia.
  - exists sel, (sorted_ranges (concat rest)), cs. split; [reflexivity|]. split; [exact A2|]. split; [exact A3|].
    split; [exact A4|]. split; [exact A5|].
    assert (Hin : forall c, In c cs <-> In c (sel :: rest)).
    { intros c. split; apply Permutation_in; [symmetry|]; exact Hp. }
    split; [apply Hin; now left|]. split.
    { intros c Hc. apply Hin in Hc. destruct Hc as [->|Hc]; [lia|].
      inversion Hs as [|? ? _ Hf]; subst. rewrite Forall_forall in Hf. specialize (Hf c Hc).
      unfold le, wide in Hf. apply Z.leb_le in Hf. unfold c_length in Hf.
      now rewrite !c_end_eq, !c_start_eq in Hf. }
    split; [|apply sort_sorted; [apply range_total|apply range_trans]].
    rewrite <- A3. rewrite <- (perm_concat _ _ Hp). cbn [concat].
    apply Permutation_app_head, sort_perm.
Qed.
Theorem C15_select_few (l : list irange) : (length l <= 1)%nat -> select_index_ranges l = Ok (l, []).
Proof. intros H. unfold select_index_ranges. apply Nat.leb_le in H. now rewrite H. Qed.

(* ---------------------------------------------------------------- *)
(** *** True extents: for ranges in order that are not nested *)
Definition staircase (l : list irange) : Prop :=
  StronglySorted (fun a b => fst a <= fst b /\ snd a <= snd b) l.
Lemma SS_last {A} (R : A -> A -> Prop) l x : StronglySorted R (l ++ [x]) -> Forall (fun y => R y x) l.
Proof.
  induction l as [|y l IH]; [constructor|]. cbn. inversion 1; subst. constructor; [|auto].
  apply Forall_app in H3 as [_ H3]. now inversion H3.
Qed.
Lemma staircase_extent c : c <> [] -> staircase c -> extent c (last_end c - first_start c).
Proof.
  intros Hc Hs. exists (first_start c), (last_end c). split; [reflexivity|]. split; [|split].
  - apply Forall_forall. intros r Hr. split.
    + destruct c as [|r0 c]; [congruence|]. cbn. inversion Hs as [|? ? _ Hf]; subst. rewrite Forall_forall in Hf.
      destruct Hr as [->|Hr]; [lia|apply Hf; exact Hr].
    + destruct c as [|r1 c' _] using rev_ind; [congruence|]. unfold last_end. rewrite rev_app_distr. cbn.
      apply SS_last in Hs. rewrite Forall_forall in Hs.
      apply in_app_or in Hr as [Hr|[->|[]]]; [apply Hs; exact Hr|lia].
  - destruct c; [congruence|]. now left.
  - destruct c as [|r1 c' _] using rev_ind; [congruence|]. unfold last_end. rewrite rev_app_distr. cbn.
    apply Exists_app. right. now left.
Qed.
Lemma extent_unique c n m : extent c n -> extent c m -> n = m.
Proof.
  intros (s & e & -> & H1 & H2 & H3) (s' & e' & -> & G1 & G2 & G3).
  rewrite Forall_forall in *. rewrite Exists_exists in *.
  destruct H2 as (a & Ha & <-). destruct H3 as (b & Hb & <-).
  destruct G2 as (a' & Ha' & <-). destruct G3 as (b' & Hb' & <-).
  pose proof (H1 _ Ha'). pose proof (H1 _ Hb'). pose proof (G1 _ Ha). pose proof (G1 _ Hb). lia.
Qed.
Lemma SS_concat_in {A} (R : A -> A -> Prop) (cs : list (list A)) c : StronglySorted R (concat cs) -> In c cs -> StronglySorted R c.
Proof.
  induction cs as [|d cs IH]; [contradiction|]. cbn. intros Hs [->|Hc].
  - now apply SS_app_l in Hs.
  - apply IH; [now apply SS_app_r in Hs|exact Hc].
Qed.
Lemma Linked_nonempty c : Linked c -> c <> [].
Proof. induction 1; [discriminate|]. destruct a; [congruence|discriminate]. Qed.

Lemma SS_perm_unique {A} (leb : A -> A -> bool) (anti : forall a b, leb a b = true -> leb b a = true -> a = b) :
  forall l l', StronglySorted (fun a b => leb a b = true) l -> StronglySorted (fun a b => leb a b = true) l' ->
  Permutation l l' -> l = l'.
Proof.
  induction l as [|x l IH]; intros l' H H' P.
  - now apply Permutation_nil in P.
  - destruct l' as [|y l']; [symmetry in P; now apply Permutation_nil in P|].
    inversion H as [|? ? Hs Hf]; inversion H' as [|? ? Hs' Hf']; subst. rewrite Forall_forall in *.
    assert (x = y).
    { assert (Hx : In x (y :: l')) by (eapply Permutation_in; [exact P|now left]).
      assert (Hy : In y (x :: l)) by (eapply Permutation_in; [symmetry; exact P|now left]).
      destruct Hx as [->|Hx]; [reflexivity|]. destruct Hy as [->|Hy]; [reflexivity|]. apply anti; auto. }
    subst y. f_equal. apply IH; auto. now apply Permutation_cons_inv in P.
Qed.
Lemma range_anti a b : range_leb a b = true -> range_leb b a = true -> a = b.
Proof.
  unfold range_leb. rewrite !orb_true_iff, !andb_true_iff, !Z.ltb_lt, !Z.eqb_eq, !Z.leb_le.
  destruct a, b; cbn. intros. f_equal; lia.
Qed.

(** If no range is nested in another one, the selected cluster has the greatest
    true extent. *)
Theorem C15_widest (l sel unsel : list irange) : (2 <= length l)%nat ->
  (forall a b, In a l -> In b l -> fst a <= fst b -> snd a <= snd b) ->
  select_index_ranges l = Ok (sel, unsel) ->
  exists cs, Permutation (concat cs) l /\ Forall Linked cs /\ apart cs /\ In sel cs /\
    forall c n m, In c cs -> extent c n -> extent sel m -> n <= m.
Proof.
  intros Hl Hst Hsel. destruct (C15_select l Hl) as (sel' & unsel' & cs & A1 & A2 & A3 & A4 & A5 & A6 & A7 & _).
  rewrite A1 in Hsel. injection Hsel as <- <-. exists cs. repeat (split; [assumption|]).
  intros c n m Hc Hn Hm.
  assert (Hstair : staircase (concat cs)).
  { assert (Hin : forall x, In x (concat cs) -> In x l) by (intros x; apply Permutation_in; exact A3).
    clear -A2 Hin Hst. induction A2 as [|r l' Hs IH Hf]; [constructor|].
    constructor; [apply IH; intros; apply Hin; now right|]. rewrite Forall_forall in *. intros x Hx.
    specialize (Hf x Hx). unfold r_le, le, range_leb in Hf.
    assert (fst r <= fst x).
    { apply orb_true_iff in Hf as [Hf|Hf]; [apply Z.ltb_lt in Hf; lia|].
      apply andb_true_iff in Hf as [Hf _]. apply Z.eqb_eq in Hf. lia. }
    split; [assumption|]. apply Hst; auto; apply Hin; [now left|now right]. }
  rewrite Forall_forall in A4.
  assert (E1 : extent c (last_end c - first_start c)).
  { apply staircase_extent; [apply Linked_nonempty; auto|eapply SS_concat_in; eassumption]. }
  assert (E2 : extent sel' (last_end sel' - first_start sel')).
  { apply staircase_extent; [apply Linked_nonempty; auto|eapply SS_concat_in; eassumption]. }
  rewrite (extent_unique _ _ _ Hn E1), (extent_unique _ _ _ Hm E2). auto.
Qed.

(** With nested ranges the end of a cluster is taken from the range with the last
    start: the widest match may be rejected. *)
Theorem C15_nested_refuted : exists (l sel unsel : list irange),
  select_index_ranges l = Ok (sel, unsel) /\ 
  (forall r, In r l -> fst r < snd r) /\
  exists n m, extent unsel n /\ extent sel m /\ m < n.
Proof.
  exists [(0, 100); (2, 5); (200, 210)], [(200, 210)], [(0, 100); (2, 5)].
  split; [reflexivity|]. split.
  { intros r [<-|[<-|[<-|[]]]]; reflexivity. }
  exists 100, 10. split; [|split].
  - exists 0, 100. split; [reflexivity|]. split; [|split].
    + repeat constructor; cbn; lia.
    + now left.
    + now left.
  - exists 200, 210. split; [reflexivity|]. split; [|split].
    + repeat constructor; cbn; lia.
    + now left.
    + now left.
  - lia.
Qed.

Example C15_ex : select_index_ranges [(100, 103); (0, 2); (10, 15); (104, 120); (300, 302)] =
  Ok ([(100, 103); (104, 120)], [(0, 2); (10, 15); (300, 302)]).
Proof. reflexivity. Qed.
Example C15_ex_clusters :
  merge_related 5 (map (fun r => sorted_ranges [r]) (sorted_ranges [(100, 103); (0, 2); (10, 15); (104, 120); (300, 302)])) =
  Ok [[(0, 2); (10, 15)]; [(100, 103); (104, 120)]; [(300, 302)]].
Proof. reflexivity. Qed.
(** two rounds are needed here: the joined first pair reaches further *)
Example C15_ex_rounds :
  merge_related 3 [[(0, 10)]; [(40, 50)]; [(52, 70)]] = Ok [[(0, 10); (40, 50); (52, 70)]] /\
  snd (merge_round [(0, 10)] [[(40, 50)]; [(52, 70)]]) = true /\
  fst (merge_round [(0, 10)] [[(40, 50)]; [(52, 70)]]) = [[(0, 10)]; [(40, 50); (52, 70)]].
Proof. repeat split; reflexivity. Qed.

(** Merging ranges gives the smallest range that covers them; without ranges it fails. *)
Theorem C15_merged l :
  (l = [] /\ merge_index_ranges l = Err ValueError) \/
  exists s e, merge_index_ranges l = Ok (s, e) /\ Forall (fun r => s <= fst r /\ snd r <= e) l /\
    Exists (fun r => fst r = s) l /\ Exists (fun r => snd r = e) l.
Proof.
  destruct l as [|r l]; [left; auto|]. right. cbn [merge_index_ranges].
  assert (A : forall l m, let s := fold_left (fun m (x : irange) => Z.min m (fst x)) l m in
    s <= m /\ Forall (fun r => s <= fst r) l /\ (s = m \/ Exists (fun r => fst r = s) l)).
  { clear. induction l as [|x l IH]; intros m; cbn [fold_left]; [repeat split; [cbn; lia|constructor|now left]|].
    destruct (IH (Z.min m (fst x))) as (I1 & I2 & I3). cbn zeta in *. split; [lia|]. split; [constructor; [lia|exact I2]|].
    destruct I3 as [I3|I3]; [|right; now right]. rewrite I3 in *. destruct (Z.min_spec m (fst x)) as [[_ Q]|[_ Q]]; [left; lia|right; left; lia]. }
  assert (B : forall l m, let e := fold_left (fun m (x : irange) => Z.max m (snd x)) l m in
    m <= e /\ Forall (fun r => snd r <= e) l /\ (e = m \/ Exists (fun r => snd r = e) l)).
  { clear. induction l as [|x l IH]; intros m; cbn [fold_left]; [repeat split; [cbn; lia|constructor|now left]|].
    destruct (IH (Z.max m (snd x))) as (I1 & I2 & I3). cbn zeta in *. split; [lia|]. split; [constructor; [lia|exact I2]|].
    destruct I3 as [I3|I3]; [|right; now right]. rewrite I3 in *. destruct (Z.max_spec m (snd x)) as [[_ Q]|[_ Q]]; [right; left; lia|left; lia]. }
  destruct (A l (fst r)) as (A1 & A2 & A3). destruct (B l (snd r)) as (B1 & B2 & B3). cbn zeta in *.
  do 2 eexists. split; [reflexivity|]. split; [|split].
  - constructor; [auto|]. rewrite Forall_forall in *. auto.
  - destruct A3 as [A3|A3]; [now left|now right].
  - destruct B3 as [B3|B3]; [now left|now right].
Qed.
Example C15_merged_ex : merge_index_ranges [(7, 9); (2, 4); (3, 12)] = Ok (2, 12).
Proof. reflexivity. Qed.

Print Assumptions C15_merged.
Print Assumptions C15_clusters.
Print Assumptions C15_select.
Print Assumptions C15_select_few.
Print Assumptions C15_widest.
Print Assumptions C15_nested_refuted.
