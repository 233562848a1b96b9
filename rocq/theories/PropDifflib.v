(** Properties of the matching blocks of difflib's [SequenceMatcher] on words (ModelDifflib). *)
From Verif Require Import Base ModelFuzzyMatch ModelWordMatch ModelFuzzySearch ModelDifflib PropFuzzyMatch PropWordMatch PropFuzzySearch.
From Coq Require Import Sorting.Sorted Sorting.Permutation.
Open Scope nat_scope.
Open Scope list_scope.

(* ---------------------------------------------------------------- *)
(** ** Specification *)

(** [k] words from position [i] of [a] are the words from position [j] of [b] *)
Definition common (a b : list str) (i j k : nat) : Prop :=
  forall t, t < k -> exists w, nth_error a (i + t) = Some w /\ nth_error b (j + t) = Some w.
(** a match within the range [alo, ahi) of [a] and the range [blo, bhi) of [b] *)
Definition match_in (a b : list str) (alo ahi blo bhi i j k : nat) : Prop :=
  alo <= i /\ i + k <= ahi /\ blo <= j /\ j + k <= bhi /\ common a b i j k.

Lemma eq_at_iff a b i j : eq_at a b i j = true <-> exists w, nth_error a i = Some w /\ nth_error b j = Some w.
Proof.
  unfold eq_at. destruct (nth_error a i) as [x|], (nth_error b j) as [y|]; try (split; [discriminate|intros (w & A & B); discriminate]).
  rewrite streq_true. split; [intros ->; eauto|intros (w & A & B); congruence].
Qed.

Section Longest.
Variables (a b : list str) (alo ahi blo bhi : nat).
Hypothesis (Ha : alo <= ahi <= length a) (Hb : blo <= bhi <= length b).

(* the longest match that ends with the words at i and j *)
Fixpoint run (i j : nat) {struct i} : nat :=
  if (alo <=? i) && (blo <=? j) && eq_at a b i j then S (match i, j with S i', S j' => run i' j' | _, _ => 0 end) else 0.
Lemma run_eq i j : run i j = if (alo <=? i) && (blo <=? j) && eq_at a b i j then S (match i, j with S i', S j' => run i' j' | _, _ => 0 end) else 0.
Proof. destruct i; reflexivity. Qed.
Lemma run_facts : forall i j, run i j <= S i - alo /\ run i j <= S j - blo /\ common a b (S i - run i j) (S j - run i j) (run i j).
Proof.
  induction i as [|i IH]; intros j; rewrite run_eq.
  - destruct ((alo <=? 0) && (blo <=? j) && eq_at a b 0 j) eqn:E; [|split; [lia|split; [lia|intros t Ht; lia]]].
    apply andb_true_iff in E as [E E3]. apply andb_true_iff in E as [E1 E2]. apply Nat.leb_le in E1, E2. apply eq_at_iff in E3 as (w & A & B).
    split; [lia|split; [lia|]]. intros t Ht. exists w. replace (1 - 1 + t) with 0 by lia. replace (S j - 1 + t) with j by lia. auto.
  - destruct ((alo <=? S i) && (blo <=? j) && eq_at a b (S i) j) eqn:E; [|split; [lia|split; [lia|intros t Ht; lia]]].
    apply andb_true_iff in E as [E E3]. apply andb_true_iff in E as [E1 E2]. apply Nat.leb_le in E1, E2. apply eq_at_iff in E3 as (w & A & B).
    destruct j as [|j].
    + split; [lia|split; [lia|]]. intros t Ht. exists w. replace (S (S i) - 1 + t) with (S i) by lia. replace (1 - 1 + t) with 0 by lia. auto.
    + destruct (IH j) as (F1 & F2 & F3). set (k := run i j) in *. split; [lia|split; [lia|]]. intros t Ht.
      destruct (Nat.eq_dec t k) as [->|Ht'].
      * exists w. replace (S (S i) - S k + k) with (S i) by lia. replace (S (S j) - S k + k) with (S j) by lia. auto.
      * destruct (F3 t) as (w' & A' & B'); [lia|]. exists w'. replace (S (S i) - S k) with (S i - k) by lia. replace (S (S j) - S k) with (S j - k) by lia. auto.
Qed.
Lemma run_max k : forall i j, alo <= i -> blo <= j -> common a b i j (S k) -> S k <= run (i + k) (j + k).
Proof.
  induction k as [|k IH]; intros i j Hi Hj C; rewrite run_eq.
  - destruct (C 0) as (w & A & B); [lia|]. replace (eq_at a b (i + 0) (j + 0)) with true by (symmetry; apply eq_at_iff; eauto).
    replace (alo <=? i + 0) with true by (symmetry; apply Nat.leb_le; lia). replace (blo <=? j + 0) with true by (symmetry; apply Nat.leb_le; lia). cbn. lia.
  - destruct (C (S k)) as (w & A & B); [lia|]. replace (eq_at a b (i + S k) (j + S k)) with true by (symmetry; apply eq_at_iff; eauto).
    replace (alo <=? i + S k) with true by (symmetry; apply Nat.leb_le; lia). replace (blo <=? j + S k) with true by (symmetry; apply Nat.leb_le; lia). cbn [andb].
    assert (S k <= run (i + k) (j + k)) by (apply IH; [exact Hi|exact Hj|intros t Ht; apply C; lia]).
    replace (i + S k) with (S (i + k)) by lia. replace (j + S k) with (S (j + k)) by lia. lia.
Qed.
Lemma run_zero i j : eq_at a b i j = false \/ j < blo \/ i < alo -> run i j = 0.
Proof.
  intros H. rewrite run_eq. destruct ((alo <=? i) && (blo <=? j) && eq_at a b i j) eqn:E; [|reflexivity].
  apply andb_true_iff in E as [E E3]. apply andb_true_iff in E as [E1 E2]. apply Nat.leb_le in E1, E2. destruct H as [H|[H|H]]; [congruence|lia|lia].
Qed.

(* the row before i, and the part of row i before j0 *)
Definition before_row (i : nat) (d : list (nat * nat)) : Prop := forall j,
  get_len d j = if (blo <=? j) && (j <? bhi) then match i with O => 0 | S i' => run i' j end else 0.
Definition part_row (i j0 : nat) (d : list (nat * nat)) : Prop := forall j,
  get_len d j = if (blo <=? j) && (j <? bhi) && (j <? j0) then run i j else 0.
Definition seen (i j0 i' j' : nat) : Prop := (i' < i \/ (i' = i /\ j' < j0)) /\ j' < bhi.
Definition best_of (P : nat -> nat -> Prop) (m : triple) : Prop :=
  let '(bi, bj, bs) := m in
  ((bs = 0 /\ bi = alo /\ bj = blo) \/
   exists i j, P i j /\ 0 < bs /\ run i j = bs /\ bi = S i - bs /\ bj = S j - bs /\
     forall i' j', P i' j' -> run i' j' = bs -> i < i' \/ (i = i' /\ j <= j')) /\
  forall i' j', P i' j' -> run i' j' <= bs.
Lemma best_ext P Q m : (forall i j, 0 < run i j -> (P i j <-> Q i j)) -> best_of P m -> best_of Q m.
Proof.
  intros H. destruct m as [[bi bj] bs]. intros [[B|(i & j & B1 & B2 & B3 & B4 & B5 & B6)] C]; split.
  - now left.
  - intros i' j' Hq. destruct (run i' j') eqn:E; [lia|]. rewrite <- E. apply C, H; [lia|exact Hq].
  - right. exists i, j. split; [apply H; [lia|exact B1]|]. repeat (split; [assumption|]). intros i' j' Hq Hr. apply B6; [apply H; [lia|exact Hq]|exact Hr].
  - intros i' j' Hq. destruct (run i' j') eqn:E; [lia|]. rewrite <- E. apply C, H; [lia|exact Hq].
Qed.
Lemma part_skip i j0 d : run i j0 = 0 -> part_row i j0 d -> part_row i (S j0) d.
Proof.
  intros Hr H j. rewrite H. destruct (Nat.eq_dec j j0) as [->|Hj].
  - rewrite Hr, Nat.ltb_irrefl, andb_false_r. now destruct (_ && _ && _).
  - replace (j <? S j0) with (j <? j0); [reflexivity|]. apply eq_true_iff_eq. rewrite !Nat.ltb_lt. lia.
Qed.
Lemma part_end i j0 d : bhi <= j0 -> part_row i j0 d -> before_row (S i) d.
Proof.
  intros Hj H j. rewrite H. destruct (j <? bhi) eqn:E; [|now rewrite !andb_false_r]. apply Nat.ltb_lt in E.
  replace (j <? j0) with true by (symmetry; apply Nat.ltb_lt; lia). now rewrite andb_true_r.
Qed.
Lemma best_skip i j0 m : run i j0 = 0 -> best_of (seen i j0) m -> best_of (seen i (S j0)) m.
Proof.
  intros Hr. apply best_ext. intros i' j' Hp. unfold seen. split; [lia|]. intros [[H1|[-> H1]] H2]; [auto|]. split; [|exact H2]. right. split; [reflexivity|].
  destruct (Nat.eq_dec j' j0) as [->|]; [lia|lia].
Qed.
Lemma best_end i j0 m : bhi <= j0 -> best_of (seen i j0) m -> best_of (seen (S i) 0) m.
Proof. intros Hj. apply best_ext. intros i' j' Hp. unfold seen. lia. Qed.

Lemma row_step i d : alo <= i < length a -> before_row i d -> forall n j0 new m, j0 + n = length b ->
  part_row i j0 new -> best_of (seen i j0) m ->
  let r := row i blo bhi d new m (filter (eq_at a b i) (seq j0 n)) in before_row (S i) (fst r) /\ best_of (seen (S i) 0) (snd r).
Proof.
  intros Hi Hd. induction n as [|n IH]; intros j0 new m Hn Hp Hm.
  - cbn. split; [apply (part_end i j0); [lia|exact Hp]|apply (best_end i j0); [lia|exact Hm]].
  - cbn [seq filter]. destruct (eq_at a b i j0) eqn:E.
    2: { apply IH; [lia|apply part_skip; [apply run_zero; auto|exact Hp]|apply best_skip; [apply run_zero; auto|exact Hm]]. }
    cbn [row]. destruct (Nat.ltb_spec j0 blo) as [Hl|Hl].
    { apply IH; [lia|apply part_skip; [apply run_zero; auto|exact Hp]|apply best_skip; [apply run_zero; auto|exact Hm]]. }
    destruct (Nat.leb_spec bhi j0) as [Hh|Hh].
    { cbn. split; [apply (part_end i j0); [lia|exact Hp]|apply (best_end i j0); [lia|exact Hm]]. }
    assert (K : match j0 with O => 0 | S j' => get_len d j' end + 1 = run i j0).
    { rewrite (run_eq i j0), E. replace (alo <=? i) with true by (symmetry; apply Nat.leb_le; lia). replace (blo <=? j0) with true by (symmetry; apply Nat.leb_le; lia).
      cbn [andb]. rewrite Nat.add_1_r. f_equal. destruct j0 as [|j']; [now destruct i|]. rewrite Hd.
      replace (j' <? bhi) with true by (symmetry; apply Nat.ltb_lt; lia). rewrite andb_true_r.
      destruct (Nat.leb_spec blo j'); [reflexivity|]. destruct i; [reflexivity|]. symmetry. apply run_zero. auto. }
    rewrite K. set (k := run i j0) in *.
    assert (K0 : 0 < k) by lia.
    apply IH; [lia| |].
    + intros j. unfold get_len. cbn [find fst]. destruct (Nat.eqb_spec j0 j) as [<-|Hj].
      * cbn [snd]. replace (blo <=? j0) with true by (symmetry; apply Nat.leb_le; lia). replace (j0 <? bhi) with true by (symmetry; apply Nat.ltb_lt; lia).
        replace (j0 <? S j0) with true by (symmetry; apply Nat.ltb_lt; lia). reflexivity.
      * fold (get_len new j). rewrite Hp. replace (j <? S j0) with (j <? j0); [reflexivity|]. apply eq_true_iff_eq. rewrite !Nat.ltb_lt. lia.
    + destruct m as [[bi bj] bs]. destruct Hm as [M1 M2]. cbn [snd]. destruct (run_facts i j0) as (F1 & F2 & _). fold k in F1, F2.
      destruct (Nat.ltb_spec bs k) as [Hk|Hk].
      * split.
        -- right. exists i, j0. split; [split; [right; lia|lia]|]. split; [exact K0|]. split; [reflexivity|]. split; [lia|]. split; [lia|].
           intros i' j' [[H1|[-> H1]] H2] Hr; [|right; split; [reflexivity|]; destruct (Nat.eq_dec j' j0); [lia|]].
           ++ assert (run i' j' <= bs) by (apply M2; split; [left; exact H1|exact H2]). lia.
           ++ assert (run i j' <= bs) by (apply M2; split; [right; lia|exact H2]). lia.
        -- intros i' j' [[H1|[-> H1]] H2].
           ++ assert (run i' j' <= bs) by (apply M2; split; [left; exact H1|exact H2]). lia.
           ++ destruct (Nat.eq_dec j' j0) as [->|]; [fold k; lia|]. assert (run i j' <= bs) by (apply M2; split; [right; lia|exact H2]). lia.
      * split.
        -- destruct M1 as [M1|(i1 & j1 & B1 & B2 & B3 & B4 & B5 & B6)]; [lia|]. right. exists i1, j1. split; [destruct B1 as [B1 B1']; split; [destruct B1; [left|right]; lia|exact B1']|].
           repeat (split; [assumption|]). intros i' j' [[H1|[-> H1]] H2] Hr.
           ++ apply B6; [split; [left; exact H1|exact H2]|exact Hr].
           ++ destruct (Nat.eq_dec j' j0) as [->|]; [|apply B6; [split; [right; lia|exact H2]|exact Hr]].
              destruct B1 as [B1 _]. destruct B1; [left; assumption|right; lia].
        -- intros i' j' [[H1|[-> H1]] H2].
           ++ apply M2. split; [left; exact H1|exact H2].
           ++ destruct (Nat.eq_dec j' j0) as [->|]; [fold k; lia|]. apply M2. split; [right; lia|exact H2].
Qed.
Lemma b2j_filter i : (match nth_error a i with Some x => b2j b x | None => [] end) = filter (eq_at a b i) (seq 0 (length b)).
Proof.
  unfold eq_at. destruct (nth_error a i) as [x|]; [reflexivity|]. induction (seq 0 (length b)); [reflexivity|exact IHl].
Qed.
Lemma rows_best n : forall i d m, alo <= i -> i + n <= length a -> before_row i d -> best_of (seen i 0) m ->
  best_of (seen (i + n) 0) (rows a b (seq i n) blo bhi d m).
Proof.
  induction n as [|n IH]; intros i d m Hi Hn Hd Hm; [now rewrite Nat.add_0_r|]. cbn [seq rows]. rewrite b2j_filter.
  assert (Hi' : alo <= i < length a) by lia. pose proof (row_step i d Hi' Hd (length b) 0 [] m eq_refl) as R.
  destruct (row i blo bhi d [] m (filter (eq_at a b i) (seq 0 (length b)))) as [new m'].
  destruct R as [R1 R2].
  - intros j. cbn. rewrite andb_false_r. reflexivity.
  - exact Hm.
  - cbn [fst snd] in R1, R2. replace (i + S n) with (S i + n) by lia. apply IH; [lia|lia|exact R1|exact R2].
Qed.
Lemma rows_result : best_of (seen ahi 0) (rows a b (seq alo (ahi - alo)) blo bhi [] (alo, blo, 0)).
Proof.
  replace ahi with (alo + (ahi - alo)) at 1 by lia. apply rows_best; [lia|lia| |].
  - intros j. cbn. destruct (_ && _); [|reflexivity]. destruct alo as [|i] eqn:E; [reflexivity|]. symmetry. rewrite <- E in *. apply run_zero. lia.
  - split; [left; auto|]. intros i' j' [[H|[_ H]] _]; [|lia]. rewrite run_zero by auto. lia.
Qed.
Lemma best_match m : best_of (seen ahi 0) m -> let '(i, j, k) := m in
  match_in a b alo ahi blo bhi i j k /\
  forall i' j' k', match_in a b alo ahi blo bhi i' j' k' -> k' <= k /\ (k' = k -> i < i' \/ (i = i' /\ j <= j')).
Proof.
  destruct m as [[bi bj] bs]. intros [B C]. split.
  - destruct B as [(-> & -> & ->)|(i & j & B1 & B2 & B3 & B4 & B5 & B6)].
    + split; [lia|]. split; [lia|]. split; [lia|]. split; [lia|]. intros t Ht. lia.
    + destruct (run_facts i j) as (F1 & F2 & F3). destruct B1 as [[B1|[B1 B1']] B1'']; [|lia]. rewrite B3 in *. subst bi bj.
      split; [lia|]. split; [lia|]. split; [lia|]. split; [lia|]. exact F3.
  - intros i' j' k' (H1 & H2 & H3 & H4 & H5). destruct k' as [|k'].
    + split; [lia|]. intros <-. destruct B as [(_ & -> & ->)|(i & j & B1 & B2 & _)]; lia.
    + assert (R : S k' <= run (i' + k') (j' + k')) by (apply run_max; assumption).
      assert (R' : run (i' + k') (j' + k') <= bs) by (apply C; split; [left; lia|lia]).
      split; [lia|]. intros E. destruct B as [B|(i & j & B1 & B2 & B3 & B4 & B5 & B6)]; [lia|].
      assert (X : i < i' + k' \/ (i = i' + k' /\ j <= j' + k')) by (apply B6; [split; [left; lia|lia]|lia]).
      destruct (run_facts i j) as (F1 & F2 & _). lia.
Qed.
Lemma extend_left_id fuel m : best_of (seen ahi 0) m -> extend_left a b fuel alo blo m = m.
Proof.
  intros B. apply best_match in B. destruct m as [[i j] k]. destruct B as [(H1 & H2 & H3 & H4 & H5) B]. destruct fuel; [reflexivity|]. cbn [extend_left].
  destruct ((alo <? i) && (blo <? j) && eq_at a b (i - 1) (j - 1)) eqn:E; [|reflexivity]. exfalso.
  apply andb_true_iff in E as [E E3]. apply andb_true_iff in E as [E1 E2]. apply Nat.ltb_lt in E1, E2. apply eq_at_iff in E3.
  destruct (B (i - 1) (j - 1) (S k)) as [X _]; [|lia]. split; [lia|]. split; [lia|]. split; [lia|]. split; [lia|]. intros t Ht. destruct t as [|t].
  - rewrite !Nat.add_0_r. exact E3.
  - replace (i - 1 + S t) with (i + t) by lia. replace (j - 1 + S t) with (j + t) by lia. apply H5. lia.
Qed.
Lemma extend_right_id fuel m : best_of (seen ahi 0) m -> extend_right a b fuel ahi bhi m = m.
Proof.
  intros B. apply best_match in B. destruct m as [[i j] k]. destruct B as [(H1 & H2 & H3 & H4 & H5) B]. destruct fuel; [reflexivity|]. cbn [extend_right].
  destruct ((i + k <? ahi) && (j + k <? bhi) && eq_at a b (i + k) (j + k)) eqn:E; [|reflexivity]. exfalso.
  apply andb_true_iff in E as [E E3]. apply andb_true_iff in E as [E1 E2]. apply Nat.ltb_lt in E1, E2. apply eq_at_iff in E3.
  destruct (B i j (S k)) as [X _]; [|lia]. split; [lia|]. split; [lia|]. split; [lia|]. split; [lia|]. intros t Ht.
  destruct (Nat.eq_dec t k) as [->|]; [exact E3|]. apply H5. lia.
Qed.
(** The match found is the longest; of those it is the first in [a], and of those the first in [b]. *)
Theorem C107_longest : let '(i, j, k) := find_longest_match a b alo ahi blo bhi in
  match_in a b alo ahi blo bhi i j k /\
  forall i' j' k', match_in a b alo ahi blo bhi i' j' k' -> k' <= k /\ (k' = k -> i < i' \/ (i = i' /\ j <= j')).
Proof.
  unfold find_longest_match. pose proof rows_result as R.
  rewrite extend_left_id, extend_right_id by exact R. apply (best_match _ R).
Qed.
End Longest.

(* ---------------------------------------------------------------- *)
(** ** The matching blocks *)

(** a block is before another one in both texts; it does not touch it in both *)
Definition block_before (x y : triple) : Prop :=
  let '(i, j, k) := x in let '(i', j', k') := y in i + k <= i' /\ j + k <= j'.
Definition apart (x y : triple) : Prop :=
  let '(i, j, k) := x in let '(i', j', k') := y in i + k <= i' /\ j + k <= j' /\ ~ (i + k = i' /\ j + k = j').
(** the pair of positions is neither before nor after the block *)
Definition conflicts (x : triple) (i j : nat) : Prop :=
  let '(i0, j0, k0) := x in ~ (i < i0 /\ j < j0) /\ ~ (i0 + k0 <= i /\ j0 + k0 <= j).

Section Blocks.
Variables a b : list str.
Notation find := (find_longest_match a b).
Definition wf (r : rect) : Prop := let '(alo, ahi, blo, bhi) := r in alo <= ahi <= length a /\ blo <= bhi <= length b.
Inductive covers : nat -> nat -> nat -> nat -> list triple -> Prop :=
| cov_none alo ahi blo bhi i j : find alo ahi blo bhi = (i, j, 0) -> covers alo ahi blo bhi []
| cov_some alo ahi blo bhi i j k l1 l2 : find alo ahi blo bhi = (i, j, k) -> 0 < k ->
    covers alo i blo j l1 -> covers (i + k) ahi (j + k) bhi l2 -> covers alo ahi blo bhi (l1 ++ (i, j, k) :: l2).

Lemma find_in alo ahi blo bhi i j k : wf (alo, ahi, blo, bhi) -> find alo ahi blo bhi = (i, j, k) ->
  match_in a b alo ahi blo bhi i j k.
Proof. intros [H1 H2] E. pose proof (C107_longest a b alo ahi blo bhi H1 H2) as L. rewrite E in L. apply L. Qed.
Lemma covers_total n : forall alo ahi blo bhi, ahi - alo <= n -> wf (alo, ahi, blo, bhi) -> exists l, covers alo ahi blo bhi l.
Proof.
  induction n as [n IH] using lt_wf_ind. intros alo ahi blo bhi Hn W.
  destruct (find alo ahi blo bhi) as [[i j] k] eqn:E. destruct k as [|k]; [exists []; exact (cov_none _ _ _ _ _ _ E)|].
  destruct (find_in _ _ _ _ _ _ _ W E) as (M1 & M2 & M3 & M4 & _). destruct W as [W1 W2].
  destruct (IH (i - alo) ltac:(lia) alo i blo j) as [l1 C1]; [lia|split; lia|].
  destruct (IH (ahi - (i + S k)) ltac:(lia) (i + S k) ahi (j + S k) bhi) as [l2 C2]; [lia|split; lia|].
  eexists. exact (cov_some _ _ _ _ _ _ _ _ _ E ltac:(lia) C1 C2).
Qed.
Definition good_block (alo ahi blo bhi : nat) (x : triple) : Prop :=
  let '(i, j, k) := x in 0 < k /\ match_in a b alo ahi blo bhi i j k.
Lemma covers_facts alo ahi blo bhi l : covers alo ahi blo bhi l -> wf (alo, ahi, blo, bhi) ->
  Forall (good_block alo ahi blo bhi) l /\ StronglySorted block_before l /\
  forall i j w, alo <= i < ahi -> blo <= j < bhi -> nth_error a i = Some w -> nth_error b j = Some w -> exists x, In x l /\ conflicts x i j.
Proof.
  induction 1 as [alo ahi blo bhi i j E|alo ahi blo bhi i j k l1 l2 E Hk C1 IH1 C2 IH2]; intros W.
  - split; [constructor|]. split; [constructor|]. intros i' j' w Hi Hj A B. exfalso.
    destruct W as [W1 W2]. pose proof (C107_longest a b alo ahi blo bhi W1 W2) as L. rewrite E in L. destruct L as [_ L].
    destruct (L i' j' 1) as [X _]; [|lia]. split; [lia|]. split; [lia|]. split; [lia|]. split; [lia|]. intros t Ht. exists w.
    replace (i' + t) with i' by lia. replace (j' + t) with j' by lia. auto.
  - destruct (find_in _ _ _ _ _ _ _ W E) as (M1 & M2 & M3 & M4 & M5). destruct W as [W1 W2].
    destruct IH1 as (A1 & A2 & A3); [split; lia|]. destruct IH2 as (B1 & B2 & B3); [split; lia|]. split; [|split].
    + apply Forall_app. split; [|constructor].
      * eapply Forall_impl; [|exact A1]. intros [[x y] z] (Z1 & Z2 & Z3 & Z4 & Z5 & Z6). split; [exact Z1|]. repeat (split; [lia|]). exact Z6.
      * split; [exact Hk|]. repeat (split; [lia|]). exact M5.
      * eapply Forall_impl; [|exact B1]. intros [[x y] z] (Z1 & Z2 & Z3 & Z4 & Z5 & Z6). split; [exact Z1|]. repeat (split; [lia|]). exact Z6.
    + assert (G : forall p q, StronglySorted block_before p -> StronglySorted block_before q -> (forall x y, In x p -> In y q -> block_before x y) -> StronglySorted block_before (p ++ q)).
      { induction p as [|x p IHp]; intros q Hp Hq Hpq; [exact Hq|]. inversion Hp; subst. cbn. constructor.
        - apply IHp; [assumption|assumption|]. intros; apply Hpq; [now right|assumption].
        - apply Forall_app. split; [assumption|]. apply Forall_forall. intros y Hy. apply Hpq; [now left|exact Hy]. }
      rewrite Forall_forall in A1, B1. apply G; [exact A2| |].
      * constructor; [exact B2|]. apply Forall_forall. intros [[x y] z] Hx. destruct (B1 _ Hx) as (Z1 & Z2 & Z3 & Z4 & Z5 & Z6). cbn. lia.
      * intros [[x y] z] [[x' y'] z'] Hx [Hy|Hy]; destruct (A1 _ Hx) as (Z1 & Z2 & Z3 & Z4 & Z5 & Z6).
        -- injection Hy as <- <- <-. cbn. lia.
        -- destruct (B1 _ Hy) as (Z1' & Z2' & Z3' & Z4' & Z5' & Z6'). cbn. lia.
    + intros i' j' w Hi Hj P Q. destruct (Nat.lt_ge_cases i' i) as [H1|H1], (Nat.lt_ge_cases j' j) as [H2|H2].
      * destruct (A3 i' j' w) as (x & X1 & X2); [lia|lia|exact P|exact Q|]. exists x. split; [apply in_or_app; now left|exact X2].
      * exists (i, j, k). split; [apply in_or_app; right; now left|cbn; lia].
      * exists (i, j, k). split; [apply in_or_app; right; now left|cbn; lia].
      * destruct (Nat.lt_ge_cases i' (i + k)) as [H3|H3]; [exists (i, j, k); split; [apply in_or_app; right; now left|cbn; lia]|].
        destruct (Nat.lt_ge_cases j' (j + k)) as [H4|H4]; [exists (i, j, k); split; [apply in_or_app; right; now left|cbn; lia]|].
        destruct (B3 i' j' w) as (x & X1 & X2); [lia|lia|exact P|exact Q|]. exists x. split; [apply in_or_app; right; now right|exact X2].
Qed.
Lemma covers_empty alo ahi blo bhi l : covers alo ahi blo bhi l -> wf (alo, ahi, blo, bhi) -> alo = ahi \/ blo = bhi -> l = [].
Proof.
  intros C W H. destruct (covers_facts _ _ _ _ _ C W) as (F & _). destruct l as [|[[i j] k] l]; [reflexivity|]. inversion F as [|? ? G]; subst.
  destruct G as (Z1 & Z2 & Z3 & Z4 & Z5 & _). lia.
Qed.
Definition measure (q : list rect) : nat := fold_right (fun (r : rect) n => let '(alo, ahi, _, _) := r in 2 * (ahi - alo) + 1 + n) 0 q.
Definition cov (r : rect) (l : list triple) : Prop := let '(alo, ahi, blo, bhi) := r in covers alo ahi blo bhi l.
Lemma loop_covers fuel : forall q ls found, Forall wf q -> Forall2 cov q ls -> measure q <= fuel ->
  exists r, blocks_loop a b fuel q found = Some r /\ Permutation r (found ++ concat ls).
Proof.
  induction fuel as [|fuel IH]; intros q ls found W C M; destruct C as [|[[[alo ahi] blo] bhi] l q ls C Cs].
  - exists found. cbn. rewrite app_nil_r. split; [reflexivity|apply Permutation_refl].
  - cbn in M. lia.
  - exists found. cbn. rewrite app_nil_r. split; [reflexivity|apply Permutation_refl].
  - inversion W as [|? ? W1 W2]; subst. cbn [blocks_loop concat]. cbn [measure fold_right] in M. fold (measure q) in M.
    cbn [cov] in C. inversion C as [x1 x2 x3 x4 i j E|x1 x2 x3 x4 i j k l1 l2 E Hk C1 C2]; subst; rewrite E.
    + cbn [Nat.eqb]. apply IH; [exact W2|exact Cs|lia].
    + destruct (k =? 0) eqn:Ek; [apply Nat.eqb_eq in Ek; lia|].
      destruct (find_in _ _ _ _ _ _ _ W1 E) as (M1 & M2 & M3 & M4 & _). destruct W1 as [W1 W1'].
      set (L := if (alo <? i) && (blo <? j) then [(alo, i, blo, j)] else []). set (R := if (i + k <? ahi) && (j + k <? bhi) then [(i + k, ahi, j + k, bhi)] else []).
      assert (HL : exists ll, Forall2 cov L ll /\ concat ll = l1 /\ Forall wf L /\ measure L <= 2 * (i - alo) + 1).
      { unfold L. destruct ((alo <? i) && (blo <? j)) eqn:B.
        - exists [l1]. split; [repeat constructor; exact C1|]. split; [apply app_nil_r|]. split; [repeat constructor; lia|cbn; lia].
        - exists []. split; [constructor|]. split; [|split; [constructor|cbn; lia]]. symmetry. apply (covers_empty _ _ _ _ _ C1); [split; lia|].
          apply andb_false_iff in B as [B|B]; apply Nat.ltb_ge in B; lia. }
      assert (HR : exists ll, Forall2 cov R ll /\ concat ll = l2 /\ Forall wf R /\ measure R <= 2 * (ahi - (i + k)) + 1).
      { unfold R. destruct ((i + k <? ahi) && (j + k <? bhi)) eqn:B.
        - exists [l2]. split; [repeat constructor; exact C2|]. split; [apply app_nil_r|]. split; [repeat constructor; lia|cbn; lia].
        - exists []. split; [constructor|]. split; [|split; [constructor|cbn; lia]]. symmetry. apply (covers_empty _ _ _ _ _ C2); [split; lia|].
          apply andb_false_iff in B as [B|B]; apply Nat.ltb_ge in B; lia. }
      destruct HL as (ll & L1 & L2 & L3 & L4). destruct HR as (rr & R1 & R2 & R3 & R4).
      assert (MM : forall p q, measure (p ++ q) = measure p + measure q).
      { induction p as [|[[[? ?] ?] ?] p IHp]; intros q'; [reflexivity|]. cbn [app measure fold_right]. fold (measure (p ++ q')) (measure p). rewrite IHp. lia. }
      destruct (IH (R ++ L ++ q) (rr ++ ll ++ ls) (found ++ [(i, j, k)])) as (r & Hr & Hp).
      * apply Forall_app. split; [exact R3|]. apply Forall_app. split; [exact L3|exact W2].
      * apply Forall2_app; [exact R1|]. apply Forall2_app; [exact L1|exact Cs].
      * rewrite !MM. lia.
      * exists r. split; [exact Hr|]. rewrite Hp, !concat_app, L2, R2.
        rewrite <- !app_assoc. apply Permutation_app_head. cbn [app].
        transitivity ((i, j, k) :: (l2 ++ l1) ++ concat ls); [rewrite <- app_assoc; apply Permutation_refl|].
        transitivity ((i, j, k) :: (l1 ++ l2) ++ concat ls); [apply perm_skip, Permutation_app_tail, Permutation_app_comm|].
        rewrite <- app_assoc. apply Permutation_middle.
Qed.
End Blocks.

(* sorting *)
Definition tle (x y : triple) : Prop :=
  let '(i, j, k) := x in let '(i', j', k') := y in i < i' \/ (i = i' /\ (j < j' \/ (j = j' /\ k <= k'))).
Lemma triple_le_iff x y : triple_le x y = true <-> tle x y.
Proof.
  destruct x as [[i j] k], y as [[i' j'] k']. unfold triple_le, tle.
  rewrite orb_true_iff, andb_true_iff, orb_true_iff, andb_true_iff, !Nat.ltb_lt, !Nat.eqb_eq, Nat.leb_le. reflexivity.
Qed.
Lemma triple_le_not x y : triple_le x y = false <-> ~ tle x y.
Proof. rewrite <- triple_le_iff. destruct (triple_le x y); split; intros; congruence. Qed.
Lemma tle_trans x y z : tle x y -> tle y z -> tle x z.
Proof. destruct x as [[? ?] ?], y as [[? ?] ?], z as [[? ?] ?]. cbn. lia. Qed.
Lemma tle_total x y : tle x y \/ tle y x.
Proof. destruct x as [[? ?] ?], y as [[? ?] ?]. cbn. lia. Qed.
Lemma tle_antisym x y : tle x y -> tle y x -> x = y.
Proof. destruct x as [[? ?] ?], y as [[? ?] ?]. cbn. intros. repeat f_equal; lia. Qed.
Lemma insert_comm x y l : insert_triple x (insert_triple y l) = insert_triple y (insert_triple x l).
Proof.
  induction l as [|z l IH]; cbn [insert_triple].
  - destruct (triple_le x y) eqn:E1, (triple_le y x) eqn:E2; try reflexivity.
    + apply triple_le_iff in E1, E2. now rewrite (tle_antisym x y).
    + apply triple_le_not in E1, E2. destruct (tle_total x y); contradiction.
  - destruct (triple_le y z) eqn:Ey, (triple_le x z) eqn:Ex; cbn [insert_triple]; rewrite ?Ey, ?Ex.
    + destruct (triple_le x y) eqn:E1, (triple_le y x) eqn:E2; cbn [insert_triple]; rewrite ?Ey, ?Ex; try reflexivity.
      * apply triple_le_iff in E1, E2. now rewrite (tle_antisym x y).
      * apply triple_le_not in E1, E2. destruct (tle_total x y); contradiction.
    + destruct (triple_le x y) eqn:E1; [|reflexivity]. exfalso. apply triple_le_iff in E1, Ey. apply triple_le_not in Ex. apply Ex. exact (tle_trans _ _ _ E1 Ey).
    + destruct (triple_le y x) eqn:E1; [|reflexivity]. exfalso. apply triple_le_iff in E1, Ex. apply triple_le_not in Ey. apply Ey. exact (tle_trans _ _ _ E1 Ex).
    + now rewrite IH.
Qed.
Lemma sort_perm p q : Permutation p q -> sort_triples p = sort_triples q.
Proof.
  induction 1 as [|x p q _ IH|x y p|p q r _ IH1 _ IH2]; [reflexivity| | |congruence]; unfold sort_triples in *; cbn [fold_right].
  - now rewrite IH.
  - apply insert_comm.
Qed.
Lemma sort_sorted l : Forall (fun x : triple => 0 < snd x) l -> StronglySorted block_before l -> sort_triples l = l.
Proof.
  induction l as [|x l IH]; intros P S; [reflexivity|]. inversion P; subst. inversion S as [|? ? S1 S2]; subst. unfold sort_triples in *. cbn [fold_right].
  rewrite IH by assumption. destruct l as [|y l]; [reflexivity|]. cbn [insert_triple]. inversion S2 as [|? ? B _]; subst.
  replace (triple_le x y) with true; [reflexivity|]. symmetry. apply triple_le_iff. destruct x as [[? ?] ?], y as [[? ?] ?]. cbn in *. lia.
Qed.

(* merging *)
Section Merge.
Variables a b : list str.
Definition contains (y x : triple) : Prop :=
  let '(i, j, k) := x in let '(i', j', k') := y in i' <= i /\ i + k <= i' + k' /\ i - i' = j - j' /\ j' <= j.
Lemma merge_facts l : forall m, Forall (fun x : triple => 0 < snd x) l -> StronglySorted block_before (m :: l) ->
  let good (x : triple) := let '(i, j, k) := x in match_in a b 0 (length a) 0 (length b) i j k in
  Forall good (m :: l) ->
  let r := merge_adjacent m l in
  Forall (fun x => 0 < snd x /\ good x) r /\
  Forall (fun x : triple => fst (fst m) <= fst (fst x) /\ snd (fst m) <= snd (fst x)) r /\ StronglySorted apart r /\
  forall x, In x (m :: l) -> 0 < snd x -> exists y, In y r /\ contains y x.
Proof.
  induction l as [|[[i2 j2] k2] l IH]; intros [[i1 j1] k1] P S good G; cbn zeta in *; cbn [merge_adjacent].
  - inversion G; subst. destruct (Nat.eqb_spec k1 0) as [->|Hk].
    + split; [constructor|]. split; [constructor|]. split; [constructor|]. intros x [<-|[]] H. cbn in H. lia.
    + split; [constructor; [split; [cbn; lia|assumption]|constructor]|]. split; [constructor; [cbn; lia|constructor]|]. split; [repeat constructor|].
      intros x [<-|[]] H. exists (i1, j1, k1). split; [now left|cbn; lia].
  - inversion P as [|? ? P1 P2]; subst. inversion S as [|? ? S1 S2]; subst. inversion G as [|? ? G1 G2]; subst. inversion G2 as [|? ? G3 G4]; subst.
    inversion S1 as [|? ? S3 S4]; subst. inversion S2 as [|? ? S5 S6]; subst. cbn [snd] in P1. cbn in S5.
    destruct ((i1 + k1 =? i2) && (j1 + k1 =? j2)) eqn:E.
    + apply andb_true_iff in E as [E1 E2]. apply Nat.eqb_eq in E1, E2.
      destruct (IH (i1, j1, k1 + k2)) as (A1 & A2 & A3 & A4).
      * exact P2.
      * constructor; [exact S3|]. eapply Forall_impl; [|exact S4]. intros [[x y] z] H. cbn in *. lia.
      * constructor; [|exact G4]. cbn in G1, G3 |- *. destruct G1 as (Z1 & Z2 & Z3 & Z4 & Z5), G3 as (Y1 & Y2 & Y3 & Y4 & Y5).
        split; [lia|]. split; [lia|]. split; [lia|]. split; [lia|]. intros t Ht. destruct (Nat.lt_ge_cases t k1) as [H|H]; [apply Z5; exact H|].
        destruct (Y5 (t - k1)) as (w & W1 & W2); [lia|]. exists w. replace (i2 + (t - k1)) with (i1 + t) in W1 by lia. replace (j2 + (t - k1)) with (j1 + t) in W2 by lia. auto.
      * split; [exact A1|]. split; [exact A2|]. split; [exact A3|]. intros x [<-|[<-|Hx]] H.
        -- destruct (A4 (i1, j1, k1 + k2)) as (y & Y1 & Y2); [now left|cbn in *; lia|]. exists y. split; [exact Y1|]. destruct y as [[? ?] ?]. cbn in *. lia.
        -- destruct (A4 (i1, j1, k1 + k2)) as (y & Y1 & Y2); [now left|cbn in *; lia|]. exists y. split; [exact Y1|]. destruct y as [[? ?] ?]. cbn in *. lia.
        -- apply A4; [now right|exact H].
    + destruct (IH (i2, j2, k2) P2 S1 G2) as (A1 & A2 & A3 & A4). cbn [fst snd] in A2.
      assert (N : ~ (i1 + k1 = i2 /\ j1 + k1 = j2)).
      { intros [X Y]. rewrite X, Y, !Nat.eqb_refl in E. discriminate. }
      assert (A2' : Forall (fun x : triple => fst (fst (i1, j1, k1)) <= fst (fst x) /\ snd (fst (i1, j1, k1)) <= snd (fst x)) (merge_adjacent (i2, j2, k2) l)).
      { eapply Forall_impl; [|exact A2]. intros [[x y] z] H. cbn in *. lia. }
      destruct (Nat.eqb_spec k1 0) as [->|Hk]; cbn [app].
      * split; [exact A1|]. split; [exact A2'|]. split; [exact A3|]. intros x [<-|Hx] H; [cbn in H; lia|]. apply A4; assumption.
      * split; [constructor; [split; [cbn; lia|exact G1]|exact A1]|]. split; [constructor; [cbn; lia|exact A2']|]. split.
        -- constructor; [exact A3|]. eapply Forall_impl; [|exact A2]. intros [[x y] z] H. cbn in *. lia.
        -- intros x [<-|Hx] H; [exists (i1, j1, k1); split; [now left|cbn; lia]|]. destruct (A4 x Hx H) as (y & Y1 & Y2). exists y. split; [now right|exact Y2].
Qed.
End Merge.

Section Result.
Variables a b : list str.
Lemma blocks_covers : exists l, covers a b 0 (length a) 0 (length b) l /\
  matching_blocks a b = merge_adjacent (0, 0, 0) l ++ [(length a, length b, 0)].
Proof.
  assert (W : wf a b (0, length a, 0, length b)) by (split; lia).
  destruct (covers_total a b (length a) 0 (length a) 0 (length b) ltac:(lia) W) as [l C]. exists l. split; [exact C|].
  destruct (loop_covers a b (2 * length a + 1) [(0, length a, 0, length b)] [l] []) as (r & Hr & Hp).
  - repeat constructor; lia.
  - repeat constructor. exact C.
  - cbn. lia.
  - unfold matching_blocks. rewrite Hr. cbn [app concat] in Hp. rewrite app_nil_r in Hp. rewrite (sort_perm _ _ Hp).
    destruct (covers_facts a b _ _ _ _ _ C W) as (F1 & F2 & _). rewrite sort_sorted; [reflexivity| |exact F2].
    eapply Forall_impl; [|exact F1]. intros [[i j] k] [H _]. exact H.
Qed.
(** The blocks are runs of equal words in the order of both texts, no two touch, and no further pair
    of equal words is in line with all of them. *)
Theorem C107_blocks : exists l, matching_blocks a b = l ++ [(length a, length b, 0)] /\
  Forall (fun x : triple => let '(i, j, k) := x in 0 < k /\ match_in a b 0 (length a) 0 (length b) i j k) l /\
  StronglySorted apart l /\
  forall i j w, nth_error a i = Some w -> nth_error b j = Some w -> exists x, In x l /\ conflicts x i j.
Proof.
  destruct blocks_covers as (l & C & E). exists (merge_adjacent (0, 0, 0) l). split; [exact E|].
  assert (W : wf a b (0, length a, 0, length b)) by (split; lia).
  destruct (covers_facts a b _ _ _ _ _ C W) as (F1 & F2 & F3).
  destruct (merge_facts a b l (0, 0, 0)) as (A1 & _ & A3 & A4).
  - eapply Forall_impl; [|exact F1]. intros [[i j] k] [H _]. exact H.
  - constructor; [exact F2|]. apply Forall_forall. intros [[i j] k] _. cbn. lia.
  - constructor; [repeat (split; [lia|]); intros t Ht; lia|]. eapply Forall_impl; [|exact F1]. intros [[i j] k] [_ H]. exact H.
  - split; [eapply Forall_impl; [|exact A1]; intros [[i j] k] H; exact H|]. split; [exact A3|].
    intros i j w P Q. destruct (F3 i j w) as (x & X1 & X2); [split; [lia|apply nth_error_Some; congruence]|split; [lia|apply nth_error_Some; congruence]|exact P|exact Q|].
    destruct (A4 x) as (y & Y1 & Y2); [now right| |].
    { rewrite Forall_forall in F1. specialize (F1 x X1). destruct x as [[? ?] ?]. apply F1. }
    exists y. split; [exact Y1|]. destruct x as [[? ?] ?], y as [[? ?] ?]. cbn in *. lia.
Qed.
End Result.

(** If all words of [b] follow each other in [a], the first such place is the only block. *)
Theorem C107_whole (a b x y : list str) : b <> [] -> a = x ++ b ++ y ->
  (forall x' y', a = x' ++ b ++ y' -> length x <= length x') ->
  matching_blocks a b = [(length x, 0, length b); (length a, length b, 0)].
Proof.
  intros Hb Ea First. destruct (blocks_covers a b) as (l & C & ->).
  assert (Lb : 0 < length b) by (destruct b; [congruence|cbn; lia]).
  assert (La : length a = length x + (length b + length y)) by (rewrite Ea, !app_length; reflexivity).
  pose proof (C107_longest a b 0 (length a) 0 (length b) ltac:(lia) ltac:(lia)) as L.
  destruct (find_longest_match a b 0 (length a) 0 (length b)) as [[i j] k] eqn:E. destruct L as [(M1 & M2 & M3 & M4 & M5) L].
  assert (X : match_in a b 0 (length a) 0 (length b) (length x) 0 (length b)).
  { repeat (split; [lia|]). intros t Ht. destruct (nth_error b t) as [w|] eqn:N; [|apply nth_error_None in N; lia]. exists w. split; [|exact N].
    rewrite Ea, nth_error_app2 by lia. replace (length x + t - length x) with t by lia. rewrite nth_error_app1 by lia. exact N. }
  destruct (L _ _ _ X) as [K I]. assert (k = length b) by lia. subst k. assert (j = 0) by lia. subst j. specialize (I eq_refl).
  assert (Hi : i = length x).
  { assert (length x <= i); [|lia]. rewrite <- (firstn_length_le a (n := i)) by lia. apply (First _ (skipn (i + length b) a)).
    rewrite <- (firstn_skipn i a) at 1. f_equal. rewrite <- (firstn_skipn (length b) (skipn i a)) at 1. f_equal.
    - apply (@nth_ext str _ _ [] []); [rewrite firstn_length, skipn_length; lia|]. intros t Ht. rewrite firstn_length, skipn_length in Ht.
      destruct (M5 t) as (w & W1 & W2); [lia|]. rewrite (nth_error_nth b t [] W2). apply nth_error_nth.
      rewrite <- nth_skipn in W1. rewrite <- W1. rewrite <- (firstn_skipn (length b) (skipn i a)) at 2. symmetry. apply nth_error_app1. rewrite firstn_length, skipn_length. lia.
    - clear. rewrite (Nat.add_comm i). revert i. induction a as [|z a' IH]; intros i; [now rewrite !skipn_nil|]. destruct i as [|i]; [now rewrite Nat.add_0_r|].
      rewrite <- plus_n_Sm. cbn [skipn]. apply IH. }
  subst i. inversion C as [x1 x2 x3 x4 i j E'|x1 x2 x3 x4 i j k l1 l2 E' Hk C1 C2]; subst x1 x2 x3 x4; rewrite E in E'; [injection E' as _ _ E'; lia|].
  injection E' as <- <- <-.
  assert (l1 = []) by (apply (covers_empty a b _ _ _ _ _ C1); [split; lia|lia]). assert (l2 = []) by (apply (covers_empty a b _ _ _ _ _ C2); [split; lia|lia]).
  subst l1 l2. cbn [app merge_adjacent]. rewrite !Nat.add_0_l, Nat.eqb_refl, andb_true_r. destruct (0 =? length x) eqn:Ex.
  - apply Nat.eqb_eq in Ex. rewrite <- Ex. destruct (length b =? 0) eqn:Eb; [apply Nat.eqb_eq in Eb; lia|]. reflexivity.
  - destruct (length b =? 0) eqn:Eb; [apply Nat.eqb_eq in Eb; lia|]. reflexivity.
Qed.

(** The contract used so far for the matcher of words is met. *)
Theorem C107_contract : words_ok difflib_blocks.
Proof.
  intros a b. destruct (C107_blocks a b) as (l & E & F & S & _). unfold difflib_blocks. rewrite E, map_app. cbn [map].
  set (f := fun m : triple => let '(i, j, k) := m in (Z.of_nat i, Z.of_nat j, Z.of_nat k)).
  assert (Z0 : word_in_bounds a b (Z.of_nat (length a), Z.of_nat (length b), Z.of_nat 0)) by (unfold word_in_bounds, b_a, b_b, b_n, slen; cbn [fst snd]; lia).
  split; [|split].
  - apply Forall_app. split; [|constructor; [exact Z0|constructor]]. rewrite Forall_map. eapply Forall_impl; [|exact F]. intros [[i j] k] (H1 & H2 & H3 & H4 & H5 & _).
    unfold word_in_bounds, b_a, b_b, b_n, slen, f. cbn [fst snd]. lia.
  - apply Forall_app. split; [|constructor; [intros t Ht; cbn in Ht; lia|constructor]]. rewrite Forall_map. eapply Forall_impl; [|exact F]. intros [[i j] k] (H1 & H2 & H3 & H4 & H5 & H6).
    intros t Ht. unfold b_a, b_b, b_n, f in *. cbn [fst snd] in *. destruct (H6 (Z.to_nat t)) as (w & W1 & W2); [lia|]. exists w.
    rewrite !py_at_pos by lia. replace (Z.to_nat (Z.of_nat i + t)) with (i + Z.to_nat t) by lia. replace (Z.to_nat (Z.of_nat j + t)) with (j + Z.to_nat t) by lia.
    rewrite W1, W2. auto.
  - clear E Z0. induction l as [|[[i j] k] l IH]; cbn [map app]; [repeat constructor|]. inversion F as [|? ? F1 F2]; subst. inversion S as [|? ? S1 S2]; subst.
    constructor; [apply IH; assumption|]. apply Forall_app. split.
    + rewrite Forall_map. eapply Forall_impl; [|exact S2]. intros [[i' j'] k'] H. unfold follows, b_a, b_b, b_n, f. cbn in *. lia.
    + constructor; [|constructor]. destruct F1 as (H1 & H2 & H3 & H4 & H5 & _). unfold follows, b_a, b_b, b_n, f. cbn [fst snd]. lia.
Qed.

(* ---------------------------------------------------------------- *)
(** ** Short values in texts *)

(** between the two texts there is the end of a word: one is empty, or a separator is next to it *)
Definition edge (sep x y : str) : Prop :=
  x = [] \/ y = [] \/ (exists x' c, x = x' ++ [c] /\ in_chars c sep = true) \/ (exists c y', y = c :: y' /\ in_chars c sep = true).
(** [n] is found in [h] between [x] and [y] as whole words *)
Definition whole_words (sep h x n y : str) : Prop := h = x ++ n ++ y /\ edge sep x n /\ edge sep n y.

Section Tokens.
Variable sep : str.
Definition tokens (s : str) : list str := map snd (split_with_offset s sep true).
Lemma tokens_facts s : concat (tokens s) = s /\ Forall (part_ok sep) (tokens s) /\ alternating sep (tokens s).
Proof. destruct (C30_split sep s) as (A & _ & B & C). auto. Qed.
Lemma part_cons w : part_ok sep w -> exists c w', w = c :: w'.
Proof. intros [(c & -> & _)|[H _]]; [eauto|]. destruct w; [congruence|eauto]. Qed.
Definition sep_head (w : str) : Prop := match w with c :: _ => in_chars c sep = true | [] => False end.
Lemma part_sep w : part_ok sep w -> sep_head w -> exists c, w = [c] /\ in_chars c sep = true.
Proof. intros [H|[_ H]] S; [exact H|]. destruct w as [|c w]; [destruct S|]. inversion H; subst. cbn in S. congruence. Qed.
Lemma span_unique w : forall w' r r', Forall (fun c => in_chars c sep = false) w -> Forall (fun c => in_chars c sep = false) w' ->
  (r = [] \/ sep_head r) -> (r' = [] \/ sep_head r') -> w ++ r = w' ++ r' -> w = w' /\ r = r'.
Proof.
  induction w as [|c w IH]; intros [|c' w'] r r' F F' R R' E.
  - auto.
  - exfalso. cbn in E. subst r. inversion F'; subst. destruct R as [R|R]; [discriminate|cbn in R; congruence].
  - exfalso. cbn in E. subst r'. inversion F; subst. destruct R' as [R2|R2]; [discriminate|cbn in R2; congruence].
  - cbn in E. injection E as <- E. inversion F; inversion F'; subst. destruct (IH w' r r') as [-> ->]; auto.
Qed.
Lemma parts_unique l : forall l', Forall (part_ok sep) l -> alternating sep l -> Forall (part_ok sep) l' -> alternating sep l' ->
  concat l = concat l' -> l = l'.
Proof.
  revert l. assert (T : forall w l, Forall (part_ok sep) (w :: l) -> alternating sep (w :: l) -> alternating sep l /\ (sep_head w \/ concat l = [] \/ sep_head (concat l))).
  { intros w [|w2 l] F A; [split; [exact I|right; now left]|]. destruct A as [A1 A2]. split; [exact A2|]. destruct A1 as [A1|A1]; [now left|]. right. right.
    cbn [concat]. destruct w2; [destruct A1|exact A1]. }
  intros l. induction l as [|w l IH]; intros [|w' l'] F A F' A' E.
  - reflexivity.
  - exfalso. inversion F' as [|? ? P _]; subst. destruct (part_cons _ P) as (c & z & ->). discriminate.
  - exfalso. inversion F as [|? ? P _]; subst. destruct (part_cons _ P) as (c & z & ->). discriminate.
  - destruct (T _ _ F A) as [A2 B]. destruct (T _ _ F' A') as [A2' B']. inversion F as [|? ? P Q]; inversion F' as [|? ? P' Q']; subst. cbn [concat] in E.
    destruct P as [(c & -> & Hc)|[N W]], P' as [(c' & -> & Hc')|[N' W']].
    + cbn in E. injection E as <- E. f_equal. apply IH; assumption.
    + exfalso. destruct w' as [|c' w']; [congruence|]. cbn in E. injection E as <- E. inversion W'; subst. congruence.
    + exfalso. destruct w as [|c w]; [congruence|]. cbn in E. injection E as -> E. inversion W; subst. congruence.
    + destruct (span_unique w w' (concat l) (concat l') W W') as [-> E2].
      * destruct B as [B|[B|B]]; auto. destruct w; [destruct B|]. inversion W; subst. cbn in B. congruence.
      * destruct B' as [B2|[B2|B2]]; auto. destruct w'; [destruct B2|]. inversion W'; subst. cbn in B2. congruence.
      * exact E.
      * f_equal. apply IH; assumption.
Qed.
Lemma last_sep w l x c : part_ok sep w -> in_chars c sep = true -> concat (rev (w :: l)) = x ++ [c] -> sep_head w.
Proof.
  intros P Hc E. cbn [rev] in E. rewrite concat_app in E. cbn [concat] in E. rewrite app_nil_r in E.
  destruct P as [(d & -> & Hd)|[N W]]; [exact Hd|]. exfalso. destruct (exists_last N) as (w' & d & ->). rewrite app_assoc in E. apply app_inj_tail in E as [_ ->].
  apply Forall_app in W as [_ W]. inversion W; subst. congruence.
Qed.
Lemma tokens_app x y : edge sep x y -> tokens (x ++ y) = tokens x ++ tokens y.
Proof.
  intros E. destruct (tokens_facts x) as (X1 & X2 & X3). destruct (tokens_facts y) as (Y1 & Y2 & Y3). destruct (tokens_facts (x ++ y)) as (Z1 & Z2 & Z3).
  apply parts_unique; [exact Z2|exact Z3|apply Forall_app; auto| |rewrite concat_app; congruence].
  apply alternating_app; [exact X3|exact Y3|]. destruct (rev (tokens x)) as [|w l] eqn:R; [exact I|]. destruct (tokens y) as [|w' l'] eqn:T; [exact I|].
  assert (Tx : tokens x = rev (w :: l)) by (rewrite <- R; symmetry; apply rev_involutive).
  assert (Pw : part_ok sep w). { rewrite Forall_forall in X2. apply X2. rewrite Tx. apply -> in_rev. now left. }
  pose proof (Forall_inv Y2) as Pw'. destruct E as [->|[E|[(x' & c & -> & Hc)|(c & y' & -> & Hc)]]].
  - exfalso. rewrite Tx in X1. cbn [rev] in X1. rewrite concat_app in X1. destruct (part_cons _ Pw) as (c & z & ->). destruct (concat (rev l)); discriminate.
  - exfalso. subst. destruct (part_cons _ Pw') as (c & z & ->). discriminate.
  - left. apply (last_sep w l x' c Pw Hc). now rewrite <- Tx.
  - right. destruct (part_cons _ Pw') as (d & z & ->). cbn in Y1. injection Y1 as -> _. exact Hc.
Qed.
Lemma alternating_mid l1 : forall w l2, alternating sep (l1 ++ w :: l2) -> alternating sep (w :: l2).
Proof. induction l1 as [|v l1 IH]; intros w l2 H; [exact H|]. apply IH. destruct l1; cbn [app] in *; exact (proj2 H). Qed.
Lemma edge_parts l1 l2 : Forall (part_ok sep) (l1 ++ l2) -> alternating sep (l1 ++ l2) -> edge sep (concat l1) (concat l2).
Proof.
  intros F A. destruct l2 as [|w' l2]; [right; now left|]. destruct (rev l1) as [|w l] eqn:R.
  { left. rewrite <- (rev_involutive l1), R. reflexivity. }
  assert (T : l1 = rev l ++ [w]) by (rewrite <- (rev_involutive l1), R; reflexivity). subst l1. rewrite <- app_assoc in F, A. cbn [app] in F, A.
  apply alternating_mid in A. destruct A as [[A|A] _]; apply Forall_app in F as [_ F]; inversion F as [|? ? P1 Q]; inversion Q as [|? ? P2 _]; subst.
  - right. right. left. destruct (part_sep _ P1 A) as (c & -> & Hc). exists (concat (rev l)), c. split; [|exact Hc]. rewrite concat_app. reflexivity.
  - right. right. right. destruct (part_sep _ P2 A) as (c & -> & Hc). exists c, (concat l2). split; [reflexivity|exact Hc].
Qed.
Lemma tokens_nonempty n : n <> [] -> tokens n <> [].
Proof. intros H E. destruct (tokens_facts n) as (A & _). rewrite E in A. cbn in A. congruence. Qed.
Lemma whole_tokens h x n y : n <> [] -> whole_words sep h x n y -> tokens h = tokens x ++ tokens n ++ tokens y.
Proof.
  intros Hn (-> & E1 & E2). rewrite tokens_app, (tokens_app n y E2); [reflexivity|].
  destruct E1 as [E|[E|[E|(c & n' & -> & Hc)]]]; [now left|congruence|right; right; now left|]. right. right. right. exists c, (n' ++ y). split; [reflexivity|exact Hc].
Qed.
Lemma tokens_whole h n X Y : n <> [] -> tokens h = X ++ tokens n ++ Y -> whole_words sep h (concat X) n (concat Y).
Proof.
  intros Hn E. destruct (tokens_facts h) as (A & F & T). destruct (tokens_facts n) as (An & _). rewrite E in A, F, T.
  split; [rewrite <- A, !concat_app, An; reflexivity|]. split.
  - pose proof (edge_parts X (tokens n ++ Y) F T) as G. rewrite concat_app, An in G. destruct G as [G|[G|[G|(c & y' & G & Hc)]]].
    + now left.
    + right. left. now apply app_eq_nil in G as [G _].
    + right. right. now left.
    + right. right. right. destruct n as [|d n]; [congruence|]. cbn in G. injection G as -> _. eauto.
  - rewrite app_assoc in F, T. pose proof (edge_parts (X ++ tokens n) Y F T) as G. rewrite concat_app, An in G. destruct G as [G|[G|[(x' & c & G & Hc)|G]]].
    + left. now apply app_eq_nil in G as [_ G].
    + right. now left.
    + right. right. left. destruct (exists_last Hn) as (n' & d & ->). rewrite app_assoc in G. apply app_inj_tail in G as [_ ->]. eauto.
    + right. right. now right.
Qed.
End Tokens.

Section Short.
Variables (lsm : str -> str -> list block) (alpha : N -> bool).
Notation seps := default_separators.

Lemma pos_concat X (R : list str) : pos (X ++ R) (length X) = slen (concat X).
Proof. unfold pos. rewrite firstn_app, Nat.sub_diag, firstn_all. cbn [firstn]. now rewrite app_nil_r. Qed.
Lemma short_blocks h n X Y : n <> [] -> tokens seps h = X ++ tokens seps n ++ Y ->
  (forall X' Y', tokens seps h = X' ++ tokens seps n ++ Y' -> length X <= length X') ->
  word_blocks difflib_blocks seps h n = Ok [(slen (concat X), 0%Z, slen n)].
Proof.
  intros Hn E First. rewrite (word_blocks_eq difflib_blocks seps h n C107_contract). f_equal. unfold difflib_blocks.
  change (aws seps h) with (tokens seps h) in *. change (bws seps n) with (tokens seps n).
  rewrite (C107_whole _ _ X Y (tokens_nonempty seps n Hn) E First).
  assert (L : 0 < length (tokens seps n)) by (pose proof (tokens_nonempty seps n Hn); destruct (tokens seps n); [congruence|cbn; lia]).
  cbn [map filter b_n snd]. replace (Z.of_nat (length (tokens seps n)) =? 0)%Z with false by (symmetry; apply Z.eqb_neq; lia). cbn [negb Z.of_nat Z.eqb map]. f_equal.
  unfold char_block. cbn [b_a b_b b_n fst snd Z.of_nat]. change (aws seps h) with (tokens seps h). change (bws seps n) with (tokens seps n). rewrite !Nat2Z.id, E, pos_concat.
  rewrite skipn_app, skipn_all, Nat.sub_diag. cbn [skipn app]. rewrite firstn_app, Nat.sub_diag, firstn_all. cbn [firstn]. rewrite app_nil_r.
  destruct (tokens_facts seps n) as (-> & _). reflexivity.
Qed.
Open Scope Z_scope.
Lemma full_ratio h n p jf : 0 < slen n -> exists r, b_gap_ratio_fixed (mkF h n [(p, 0, slen n)] jf) = Ok r /\ (r == 1)%Q.
Proof.
  intros H. assert (E : (slen n =? 0) = false) by (apply Z.eqb_neq; lia).
  unfold b_gap_ratio_fixed, a_non_matching_junk, b_non_matching_junk, count_non_matching_junk, a_index_range, a_matching_blocks, b_matching_blocks, non_empty, len_index_range.
  cbn [f_a f_b f_blocks f_junk filter b_n snd fst b_a b_b]. rewrite E. cbn [negb map last_block last fst snd b_a b_b b_n invert_index_ranges].
  replace (p + slen n <=? p) with false by (symmetry; apply Z.leb_gt; lia). rewrite Z.ltb_irrefl.
  replace (slen n <=? 0) with false by (symmetry; apply Z.leb_gt; lia). rewrite Z.add_0_l. rewrite !Z.ltb_irrefl. cbn [app foldM bind].
  eexists. split; [reflexivity|]. unfold ratio_to, match_count. cbn [f_blocks map b_n snd zsum fold_right].
  replace (slen n + Z.max 0 (p + slen n - p - (slen n + 0)) - 0 - 0) with (slen n) by lia. rewrite E, Z.add_0_r. apply Qmult_inv_r.
  unfold Qeq, inject_Z. cbn. lia.
Qed.
Lemma from_app (pre h : str) : py_from (pre ++ h) (slen pre) = h.
Proof.
  unfold py_from. rewrite py_slice_pos by (unfold slen; lia). unfold slen. rewrite !Nat2Z.id, skipn_app, skipn_all, Nat.sub_diag. cbn [skipn app].
  apply firstn_all2. rewrite app_length. lia.
Qed.
Lemma short_search fuel pre h n X Y th exact mc isjunk : n <> [] -> Z.min (slen h) (slen n) < exact -> (th <= 1)%Q ->
  tokens seps h = X ++ tokens seps n ++ Y ->
  (forall X' Y', tokens seps h = X' ++ tokens seps n ++ Y' -> (length X <= length X')%nat) ->
  fuzzy_search_chunks lsm difflib_blocks alpha fuel (pre ++ h) n th exact mc (slen pre) isjunk =
    Ok (Some [mkF (pre ++ h) n [(slen (concat X) + slen pre, 0, slen n)] (junk_or alpha isjunk)]).
Proof.
  intros Hn He Ht E First. unfold fuzzy_search_chunks. cbn zeta. fold (junk_or alpha isjunk). rewrite from_if, from_app.
  apply Z.ltb_lt in He. rewrite He, (short_blocks h n X Y Hn E First). cbn [bind]. rewrite offset_map. cbn [map b_a b_b b_n fst snd]. change (0 + 0) with 0.
  destruct (full_ratio (pre ++ h) n (slen (concat X) + slen pre) (junk_or alpha isjunk)) as (r & -> & Hr).
  { destruct n; [congruence|]. unfold slen. cbn [length]. lia. }
  cbn [bind]. replace (Qltb r th) with false; [reflexivity|]. symmetry. unfold Qltb. apply negb_false_iff, Qle_bool_iff. rewrite Hr. exact Ht.
Qed.
Lemma prefix_tokens h n X Y X' Y' : tokens seps h = X ++ tokens seps n ++ Y -> tokens seps h = X' ++ tokens seps n ++ Y' ->
  slen (concat X) <= slen (concat X') -> (length X <= length X')%nat.
Proof.
  intros E E' L. destruct (Nat.le_gt_cases (length X) (length X')) as [H|H]; [exact H|]. exfalso.
  assert (P : X' = firstn (length X') X).
  { transitivity (firstn (length X') (tokens seps h)); [rewrite E', firstn_app, Nat.sub_diag, firstn_all; cbn [firstn]; now rewrite app_nil_r|].
    rewrite E, firstn_app. replace (length X' - length X)%nat with 0%nat by lia. cbn [firstn]. now rewrite app_nil_r. }
  rewrite <- (firstn_skipn (length X') X), concat_app, slen_app, <- P in L.
  destruct (skipn (length X') X) as [|w Z] eqn:Es. { apply (f_equal (@length str)) in Es. rewrite skipn_length in Es. cbn in Es. lia. }
  destruct (tokens_facts seps h) as (_ & F & _). rewrite E in F. apply Forall_app in F as [F _]. rewrite <- (firstn_skipn (length X') X), Es in F.
  apply Forall_app in F as [_ F]. apply Forall_inv in F. destruct (part_cons seps w F) as (c & z & ->). cbn [concat] in L. rewrite slen_app in L. unfold slen in L. cbn [length] in L. lia.
Qed.
(** A value found as whole words is found at its first such place if it, or the text, is shorter than
    the threshold for exact matches. *)
Theorem C107_short fuel pre h x n y th exact mc isjunk : n <> [] -> Z.min (slen h) (slen n) < exact -> (th <= 1)%Q ->
  whole_words seps h x n y -> (forall x' y', whole_words seps h x' n y' -> slen x <= slen x') ->
  fuzzy_search_index_range_chunks lsm difflib_blocks alpha fuel (pre ++ h) n th exact mc (slen pre) isjunk =
    Ok (Some [(slen pre + slen x, slen pre + slen x + slen n)]).
Proof.
  intros Hn He Ht W First. pose proof (whole_tokens seps h x n y Hn W) as E. destruct (tokens_facts seps x) as (Cx & _).
  unfold fuzzy_search_index_range_chunks. rewrite (short_search fuel pre h n (tokens seps x) (tokens seps y) th exact mc isjunk Hn He Ht E).
  - cbn [bind map]. unfold a_index_range, non_empty. cbn [f_blocks filter b_n snd].
    replace (slen n =? 0) with false by (symmetry; apply Z.eqb_neq; destruct n; [congruence|]; unfold slen; cbn [length]; lia).
    cbn [negb last_block last b_a b_n fst snd]. rewrite Cx. do 3 f_equal. f_equal; lia.
  - intros X' Y' E'. apply (prefix_tokens h n _ _ _ _ E E'). rewrite Cx. apply (First (concat X') (concat Y')). now apply tokens_whole.
Qed.

(* values of one word *)
Definition one_word (n : str) : Prop := n <> [] /\ Forall (fun c => in_chars c seps = false) n.
Lemma tokens_one n : one_word n -> tokens seps n = [n].
Proof.
  intros [Hn F]. destruct (tokens_facts seps n) as (A & B & C). apply (parts_unique seps); [exact B|exact C| | |].
  - constructor; [right; auto|constructor].
  - exact I.
  - cbn [concat]. now rewrite app_nil_r.
Qed.
Lemma one_none fuel pre h n th exact mc isjunk : one_word n -> Z.min (slen h) (slen n) < exact -> (0 < th)%Q ->
  (forall f, isjunk = Some f -> junk_total f) -> ~ In n (tokens seps h) ->
  fuzzy_search_chunks lsm difflib_blocks alpha fuel (pre ++ h) n th exact mc (slen pre) isjunk = Ok None.
Proof.
  intros Hn He Ht Hj Hi. apply (junk_or_total alpha) in Hj. unfold fuzzy_search_chunks. cbn zeta. fold (junk_or alpha isjunk). rewrite from_if, from_app.
  apply Z.ltb_lt in He. rewrite He.
  assert (B : word_blocks difflib_blocks seps h n = Ok []).
  { rewrite (word_blocks_eq difflib_blocks seps h n C107_contract). f_equal. unfold difflib_blocks.
    change (aws seps h) with (tokens seps h) in *. change (bws seps n) with (tokens seps n). rewrite (tokens_one n Hn).
    destruct (C107_blocks (tokens seps h) [n]) as (l & -> & F & _). destruct l as [|[[i j] k] l]; [reflexivity|]. exfalso. apply Forall_inv in F.
    destruct F as (Hk & _ & _ & _ & Hj' & C). destruct (C 0%nat Hk) as (w & W1 & W2). cbn [length] in Hj'. replace (j + 0)%nat with 0%nat in W2 by lia. cbn in W2. injection W2 as <-.
    apply Hi. exact (nth_error_In _ _ W1). }
  rewrite B. cbn [bind]. rewrite offset_map. cbn [map]. set (m := mkF _ _ _ _).
  assert (V : valid (pre ++ h) n []) by (split; constructor).
  destruct (C28_ratios m V Hj) as (_ & _ & _ & _ & r & _ & _ & _ & _ & E & _).
  rewrite E. cbn [bind]. assert (Z : (r == 0)%Q) by (refine (zero_ratio _ r _ E); reflexivity).
  unfold Qltb. destruct (Qle_bool th r) eqn:Q; [|reflexivity]. exfalso. apply Qle_bool_iff in Q. rewrite Z in Q. apply (Qlt_not_le _ _ Ht Q).
Qed.
Lemma first_split (n : str) l : In n l -> exists X Y, l = X ++ n :: Y /\ ~ In n X.
Proof.
  induction l as [|w l IH]; intros H; [destruct H|]. destruct (str_eq_dec w n) as [->|Hw]; [exists [], l; split; [reflexivity|intros []]|].
  destruct H as [H|H]; [congruence|]. destruct (IH H) as (X & Y & -> & N). exists (w :: X), Y. split; [reflexivity|]. intros [H'|H']; [congruence|contradiction].
Qed.
Lemma split_cases (n : str) X : forall Y X' Y', X ++ n :: Y = X' ++ n :: Y' -> ~ In n X ->
  (X' = X /\ Y' = Y) \/ exists Z, X' = X ++ n :: Z /\ Y = Z ++ n :: Y'.
Proof.
  induction X as [|w X IH]; intros Y [|w' X'] Y' E N.
  - injection E as ->. now left.
  - injection E as <- E. right. exists X'. auto.
  - injection E as -> E. exfalso. apply N. now left.
  - injection E as <- E. destruct (IH Y X' Y' E) as [[-> ->]|(Z & -> & ->)]; [intros H; apply N; now right|now left|]. right. exists Z. auto.
Qed.
Lemma alternating_split l1 l2 : alternating seps (l1 ++ l2) -> alternating seps l2.
Proof. intros H. destruct l2 as [|w l2]; [exact I|]. exact (alternating_mid seps l1 w l2 H). Qed.
Lemma tokens_rest h X Y : tokens seps h = X ++ Y -> tokens seps (concat Y) = Y.
Proof.
  intros E. destruct (tokens_facts seps h) as (_ & F & A). rewrite E in F, A. apply Forall_app in F as [_ F]. apply alternating_split in A.
  destruct (tokens_facts seps (concat Y)) as (B & C & D). apply (parts_unique seps); assumption.
Qed.
Definition places (h n : str) (off : Z) (r : Z * Z) : Prop :=
  exists x y, whole_words seps h x n y /\ r = (off + slen x, off + slen x + slen n).
Lemma places_tokens h n off r : one_word n ->
  places h n off r <-> exists X Y, tokens seps h = X ++ n :: Y /\ r = (off + slen (concat X), off + slen (concat X) + slen n).
Proof.
  intros H. pose proof (tokens_one n H) as T. split.
  - intros (x & y & W & ->). pose proof (whole_tokens seps h x n y (proj1 H) W) as E. rewrite T in E. exists (tokens seps x), (tokens seps y). split; [exact E|].
    destruct (tokens_facts seps x) as (-> & _). reflexivity.
  - intros (X & Y & E & ->). exists (concat X), (concat Y). split; [|reflexivity]. apply tokens_whole; [apply H|]. now rewrite T.
Qed.
Lemma all_from n th exact mc isjunk f0 : one_word n -> slen n < exact -> (0 < th)%Q -> (th <= 1)%Q -> (forall f, isjunk = Some f -> junk_total f) ->
  forall fuel pre h, (length h < fuel)%nat ->
  exists l, search_all fuel (fun s => fuzzy_search lsm difflib_blocks alpha f0 (pre ++ h) n th exact mc s isjunk) (slen (pre ++ h)) (slen pre) = Ok l /\
    (forall r, In r (map a_index_range l) <-> places h n (slen pre) r) /\ StronglySorted (fun r r' : Z * Z => snd r <= fst r') (map a_index_range l).
Proof.
  intros Hn He Ht Ht' Hj. induction fuel as [|fuel IH]; intros pre h Hf; [lia|]. cbn [search_all]. rewrite slen_app.
  assert (Ln : 0 < slen n) by (destruct Hn as [Hn _]; destruct n; [congruence|]; unfold slen; cbn [length]; lia).
  destruct (slen pre <? slen pre + slen h) eqn:E.
  2: { exists []. split; [reflexivity|]. split; [|constructor]. intros r. split; [intros []|]. intros (x & y & (-> & _) & _). apply Z.ltb_ge in E. rewrite !slen_app in E.
       pose proof (slen_nonneg x). pose proof (slen_nonneg y). lia. }
  destruct (in_dec str_eq_dec n (tokens seps h)) as [Hi|Hi].
  - destruct (first_split n _ Hi) as (X & Y & Eh & HX).
    set (m := mkF (pre ++ h) n [(slen (concat X) + slen pre, 0, slen n)] (junk_or alpha isjunk)).
    assert (Fm : fuzzy_search lsm difflib_blocks alpha f0 (pre ++ h) n th exact mc (slen pre) isjunk = Ok (Some m)).
    { unfold fuzzy_search. rewrite (short_search f0 pre h n X Y th exact mc isjunk (proj1 Hn)); [reflexivity|lia|exact Ht'|rewrite (tokens_one n Hn); exact Eh|].
      intros X' Y' E'. rewrite (tokens_one n Hn) in E'. cbn [app] in E'. rewrite Eh in E'. destruct (split_cases n X Y X' Y' E' HX) as [[-> _]|(Z & -> & _)]; [lia|]. rewrite app_length. lia. }
    rewrite Fm. cbn [bind].
    assert (Em : a_index_range m = (slen pre + slen (concat X), slen pre + slen (concat X) + slen n)).
    { unfold a_index_range, non_empty, m. cbn [f_blocks filter b_n snd]. replace (slen n =? 0) with false by (symmetry; apply Z.eqb_neq; lia).
      cbn [negb last_block last b_a b_n fst snd]. f_equal; lia. }
    rewrite Em. cbn [snd]. pose proof (slen_nonneg (concat X)) as Lx.
    replace (slen pre + slen (concat X) + slen n <=? slen pre) with false by (symmetry; apply Z.leb_gt; lia).
    assert (Dh : h = concat X ++ n ++ concat Y) by (destruct (tokens_facts seps h) as (D & _); rewrite Eh, concat_app in D; exact (eq_sym D)).
    destruct (IH (pre ++ concat X ++ n) (concat Y)) as (l & El & Il & Sl).
    { rewrite Dh in Hf. rewrite !app_length in Hf. unfold slen in Ln. lia. }
    replace ((pre ++ concat X ++ n) ++ concat Y) with (pre ++ h) in El by (rewrite Dh, <- !app_assoc; reflexivity).
    rewrite !slen_app in El. rewrite Z.add_assoc in El. rewrite El. cbn [bind]. exists (m :: l). split; [reflexivity|]. rewrite !slen_app, Z.add_assoc in Il.
    assert (Ty : tokens seps (concat Y) = Y) by (apply (tokens_rest h (X ++ [n])); rewrite <- app_assoc; exact Eh).
    cbn [map]. rewrite Em. split.
    + intros r. cbn [In]. rewrite Il, !places_tokens by exact Hn. rewrite Ty. split.
      * intros [<-|(X' & Y' & EY & ->)]; [exists X, Y; auto|]. exists (X ++ n :: X'), Y'. split; [rewrite Eh, EY, <- app_assoc; reflexivity|].
        rewrite concat_app, slen_app. cbn [concat]. rewrite slen_app. f_equal; lia.
      * intros (X' & Y' & E' & ->). rewrite Eh in E'. destruct (split_cases n X Y X' Y' E' HX) as [[-> _]|(Z & -> & EZ)]; [now left|]. right. exists Z, Y'. split; [exact EZ|].
        rewrite concat_app, slen_app. cbn [concat]. rewrite slen_app. f_equal; lia.
    + constructor; [exact Sl|]. apply Forall_forall. intros r Hr. apply Il in Hr as (x & y & _ & ->). cbn [fst snd]. pose proof (slen_nonneg x). lia.
  - assert (Fm : fuzzy_search lsm difflib_blocks alpha f0 (pre ++ h) n th exact mc (slen pre) isjunk = Ok None).
    { unfold fuzzy_search. rewrite one_none; [reflexivity|exact Hn|lia|exact Ht|exact Hj|exact Hi]. }
    rewrite Fm. cbn [bind]. exists []. split; [reflexivity|]. split; [|constructor].
    intros r. split; [intros []|]. intros H. apply (places_tokens h n _ r Hn) in H as (X & Y & Eh & _). apply Hi. rewrite Eh. apply in_or_app. right. now left.
Qed.
(** Searching all matches of a short value of one word finds exactly the places where it is a whole word. *)
Theorem C107_all fuel h n th exact mc isjunk : n <> [] -> Forall (fun c => in_chars c seps = false) n -> slen n < exact ->
  (0 < th)%Q -> (th <= 1)%Q -> (forall f, isjunk = Some f -> junk_total f) -> (length h < fuel)%nat ->
  exists l, iter_fuzzy_search_all lsm difflib_blocks alpha fuel h n th exact mc 0 isjunk = Ok l /\
    (forall r, In r (map a_index_range l) <-> exists x y, whole_words seps h x n y /\ r = (slen x, slen x + slen n)) /\
    StronglySorted (fun r r' : Z * Z => snd r <= fst r') (map a_index_range l).
Proof.
  intros H1 H2 He Ht Ht' Hj Hf. exact (all_from n th exact mc isjunk fuel (conj H1 H2) He Ht Ht' Hj fuel [] h Hf).
Qed.
(** A short value of one word that is no whole word of the text is not found. *)
Theorem C107_none fuel pre h n th exact mc isjunk : n <> [] -> Forall (fun c => in_chars c seps = false) n ->
  Z.min (slen h) (slen n) < exact -> (0 < th)%Q -> (forall f, isjunk = Some f -> junk_total f) ->
  (forall x y, ~ whole_words seps h x n y) ->
  fuzzy_search_index_range_chunks lsm difflib_blocks alpha fuel (pre ++ h) n th exact mc (slen pre) isjunk = Ok None.
Proof.
  intros H1 H2 He Ht Hj N. unfold fuzzy_search_index_range_chunks. rewrite one_none; [reflexivity|split; assumption|exact He|exact Ht|exact Hj|].
  intros Hi. destruct (in_split _ _ Hi) as (X & Y & E). apply (N (concat X) (concat Y)). apply tokens_whole; [exact H1|]. now rewrite (tokens_one n (conj H1 H2)).
Qed.
End Short.

(** The separators: white space (space, tab, line feed), full stop, comma, hyphen, colon, semicolon, round
    and square brackets. *)
Theorem C107_separators c : in_chars c default_separators = true <->
  In c [9; 10; 32; 46; 44; 45; 58; 59; 40; 41; 91; 93]%N.
Proof.
  unfold in_chars. rewrite existsb_exists. split.
  - intros (x & Hx & E). apply N.eqb_eq in E. subst x. unfold default_separators in Hx. vm_compute in Hx. cbn [In]. tauto.
  - intros H. exists c. split; [|apply N.eqb_refl]. vm_compute. cbn [In] in H. tauto.
Qed.

(* ---------------------------------------------------------------- *)
(** ** Examples *)
Open Scope nat_scope.
Definition words_of (s : str) : list str := tokens (u " ") s.
Example C107_ex_longest : find_longest_match (words_of (u "x a b y a b c")) (words_of (u "a b z a b c")) 0 13 0 11 = (7, 5, 6) /\
  find_longest_match (words_of (u "x a b y a b c")) (words_of (u "a b z a b c")) 0 12 0 11 = (1, 5, 5) /\
  find_longest_match (words_of (u "p a q a")) (words_of (u "a a")) 0 7 0 3 = (1, 1, 2).
Proof. repeat split; vm_compute; reflexivity. Qed.
Example C107_ex_blocks : matching_blocks (words_of (u "one two three four five")) (words_of (u "two x four five six")) =
    [(2, 0, 2); (5, 3, 4); (9, 9, 0)] /\
  matching_blocks (map (fun c => [c]) (u "abxcd")) (map (fun c => [c]) (u "abcd")) = [(0, 0, 2); (3, 2, 2); (5, 4, 0)].
Proof. split; vm_compute; reflexivity. Qed.
Example C107_ex_whole : matching_blocks (words_of (u "a b c b c")) (words_of (u "b c")) = [(2, 0, 3); (9, 3, 0)].
Proof.
  apply (C107_whole (words_of (u "a b c b c")) (words_of (u "b c")) (firstn 2 (words_of (u "a b c b c"))) (skipn 5 (words_of (u "a b c b c")))).
  - vm_compute. discriminate.
  - vm_compute. reflexivity.
  - intros x' y' H. vm_compute in H. change (length (firstn 2 (words_of (u "a b c b c")))) with 2.
    destruct x' as [|w [|w' x']]; [discriminate H|discriminate H|cbn; lia].
Qed.
Definition no_lsm : str -> str -> list block := fun _ _ => [].
Open Scope Z_scope.
Example C107_ex_short : fuzzy_search_index_range_chunks no_lsm difflib_blocks (fun _ => false) 50 (u "page 12, vol. 1: p. 2") (u "1") (8 # 10) 5 1 0 None = Ok (Some [(14, 15)]).
Proof. vm_compute. reflexivity. Qed.
Example C107_ex_first : whole_words default_separators (u "page 12, vol. 1: p. 2") (u "page 12, vol. ") (u "1") (u ": p. 2").
Proof.
  split; [reflexivity|]. split; right; right.
  - left. exists (u "page 12, vol."), 32%N. split; reflexivity.
  - right. exists 58%N, (u " p. 2"). split; reflexivity.
Qed.
Example C107_ex_all : exists l, iter_fuzzy_search_all no_lsm difflib_blocks (fun _ => false) 50 (u "ab, abc (ab) ab") (u "ab") (8 # 10) 5 1 0 None = Ok l /\
  map a_index_range l = [(0, 2); (9, 11); (13, 15)].
Proof. eexists. split; vm_compute; reflexivity. Qed.
Example C107_ex_none : fuzzy_search_index_range_chunks no_lsm difflib_blocks (fun _ => false) 50 (u "abc xab") (u "ab") (8 # 10) 5 1 0 None = Ok None.
Proof. vm_compute. reflexivity. Qed.
(** False: that a short value of several parts is only found where it is in the text as whole words.  A dot
    behind a letter does not count. *)
Theorem C107_none_refuted : exists alpha h n th, (forall x y, ~ whole_words default_separators h x n y) /\ (th == 1)%Q /\
  fuzzy_search_index_range_chunks no_lsm difflib_blocks alpha 50 h n th 5 1 0 None = Ok (Some [(0, 3)]).
Proof.
  exists ascii_word, (u "Vol 7"), (u "Vol."), 1%Q. split; [|split; [reflexivity|vm_compute; reflexivity]].
  intros x y (E & _). apply (f_equal (fun s => existsb (N.eqb 46) s)) in E. cbv beta in E. rewrite !existsb_app in E.
  change (existsb (N.eqb 46) (u "Vol 7")) with false in E. change (existsb (N.eqb 46) (u "Vol.")) with true in E. rewrite orb_true_r in E. discriminate.
Qed.

Print Assumptions C107_longest.
Print Assumptions C107_blocks.
Print Assumptions C107_contract.
Print Assumptions C107_whole.
Print Assumptions C107_short.
Print Assumptions C107_all.
Print Assumptions C107_none.
Print Assumptions C107_separators.
Print Assumptions C107_none_refuted.
