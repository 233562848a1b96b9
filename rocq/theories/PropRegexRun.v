(** C101: repetitions of a set of characters (used for the patterns of the code) *)
From Verif Require Import Base ModelRegex PropRegex.
Open Scope nat_scope.

(** the number of characters up to the first that is not in the set *)
Fixpoint run (f : N -> bool) (s : str) : nat := match s with c :: s' => if f c then S (run f s') else 0 | [] => 0 end.
Lemma run_le f s : run f s <= length s.
Proof. induction s as [|c s IH]; cbn; [lia|]. destruct (f c); lia. Qed.
Lemma run_all f s : Forall (fun c => f c = true) (firstn (run f s) s).
Proof. induction s as [|c s IH]; cbn; [constructor|]. destruct (f c) eqn:E; cbn; [now constructor|constructor]. Qed.
Lemma run_stop f s c q : skipn (run f s) s = c :: q -> f c = false.
Proof. induction s as [|d s IH]; cbn; [discriminate|]. destruct (f d) eqn:E; cbn; [exact IH|]. now intros [= <- _]. Qed.
Lemma run_app f w q : Forall (fun c => f c = true) w -> (forall c, hd_error q = Some c -> f c = false) -> run f (w ++ q) = length w.
Proof.
  intros Hw Hq. induction Hw as [|c w Hc Hw IH]; cbn; [|now rewrite Hc, IH].
  destruct q as [|c q]; [reflexivity|]. cbn. now rewrite (Hq c eq_refl).
Qed.
Lemma run_ext f g s : (forall c, f c = g c) -> run f s = run g s.
Proof. intros H. induction s as [|c s IH]; cbn; [reflexivity|]. now rewrite H, IH. Qed.

Definition adv (x : place) (n : nat) : place := moved x (firstn n (pl_rest x)) (skipn n (pl_rest x)) [].
Lemma adv_0 x : adv x 0 = x.
Proof. unfold adv. cbn. symmetry. apply moved_nil. Qed.
Lemma adv_S x c s n : pl_rest x = c :: s -> adv x (S n) = adv (mkPlace (S (pl_pos x)) (Some c) s (pl_groups x)) n.
Proof. intros E. unfold adv. rewrite E. cbn. unfold moved. cbn. f_equal. lia. Qed.
Definition capped (hi : option nat) (n : nat) : nat := match hi with Some h => Nat.min h n | None => n end.

Section Run.
Variables sp wd dg : N -> bool.
Variable fold : N -> N.
Variable ic : bool.
Variable neg : bool.
Variable l : list item.
Notation f := (char_ok sp wd dg fold ic neg l).
Notation ways := (ways sp wd dg fold ic).

Lemma seq_split_last a n : seq a (S n) = seq a n ++ [a + n].
Proof. revert a. induction n as [|n IH]; intros a; [cbn; now rewrite Nat.add_0_r|]. change (seq a (S (S n))) with (a :: seq (S a) (S n)). rewrite IH. cbn. now rewrite Nat.add_succ_r. Qed.

(** how many characters the ways read, in their order *)
Definition counts (greedy : bool) (lo m : nat) : list nat := if greedy then rev (seq lo (S m - lo)) else seq lo (S m - lo).
Lemma counts_S greedy lo m : counts greedy (S lo) (S m) = map S (counts greedy lo m).
Proof. unfold counts. rewrite Nat.sub_succ, <- seq_shift. destruct greedy; [now rewrite map_rev|reflexivity]. Qed.

Lemma more_run greedy : forall fuel hi x, length (pl_rest x) <= fuel ->
  ways_more (ways (RChar neg l)) greedy fuel hi x = map (adv x) (counts greedy 0 (capped hi (run f (pl_rest x)))).
Proof.
  induction fuel as [|fuel IH]; intros hi x Hl.
  - assert (Hr : pl_rest x = []) by (destruct (pl_rest x); [reflexivity|cbn in Hl; lia]). rewrite Hr. cbn [run].
    assert (E : capped hi 0 = 0) by (destruct hi; cbn; lia). rewrite E. destruct greedy; cbn; now rewrite adv_0.
  - cbn [ways_more].
    assert (E : match hi with
                | Some O => []
                | _ => flat_map (fun y => if pl_pos y =? pl_pos x then [] else ways_more (ways (RChar neg l)) greedy fuel (option_map pred hi) y) (ways (RChar neg l) x)
                end = map (adv x) (if greedy then rev (seq 1 (capped hi (run f (pl_rest x)))) else seq 1 (capped hi (run f (pl_rest x))))).
    { destruct (pl_rest x) as [|c s] eqn:Er.
      - assert (E : capped hi (run f []) = 0) by (destruct hi; cbn; lia). rewrite E. cbn [PropRegex.ways]. rewrite Er. cbn. destruct hi as [[|h]|], greedy; reflexivity.
      - cbn [PropRegex.ways run]. rewrite Er. destruct (f c) eqn:Ec.
        + cbn [flat_map pl_pos]. rewrite (proj2 (Nat.eqb_neq (S (pl_pos x)) (pl_pos x)) ltac:(lia)), app_nil_r.
          assert (Hs : length s <= fuel) by (cbn in Hl; lia).
          assert (K : forall m, map (adv x) (if greedy then rev (seq 1 (S m)) else seq 1 (S m)) =
                                map (adv (mkPlace (S (pl_pos x)) (Some c) s (pl_groups x))) (counts greedy 0 m)).
          { intros m. unfold counts. rewrite Nat.sub_0_r, <- seq_shift. destruct greedy; [rewrite <- map_rev|]; rewrite map_map; apply map_ext; intros n; now apply adv_S. }
          destruct hi as [[|h]|]; [destruct greedy; reflexivity| |].
          * cbn [option_map pred capped]. rewrite IH by exact Hs. cbn [pl_rest capped]. change (Nat.min (S h) (S (run f s))) with (S (Nat.min h (run f s))). now rewrite K.
          * cbn [option_map capped]. rewrite IH by exact Hs. cbn [pl_rest capped]. now rewrite K.
        + assert (E : capped hi 0 = 0) by (destruct hi; cbn; lia). rewrite E. cbn. destruct hi as [[|h]|], greedy; reflexivity. }
    unfold counts. rewrite Nat.sub_0_r. change (seq 0 (S (capped hi (run f (pl_rest x))))) with (0 :: seq 1 (capped hi (run f (pl_rest x)))).
    destruct greedy.
    + cbn [rev]. rewrite map_app. cbn [map]. rewrite adv_0. f_equal. rewrite <- E. now destruct hi as [[|h]|].
    + cbn [map]. rewrite adv_0. f_equal. rewrite <- E. now destruct hi as [[|h]|].
Qed.
Lemma ways_run greedy : forall lo hi x, (match hi with Some h => lo <= h | None => True end) ->
  ways (RRep greedy lo hi (RChar neg l)) x = map (adv x) (counts greedy lo (capped hi (run f (pl_rest x)))).
Proof.
  cbn [PropRegex.ways]. induction lo as [|lo IH]; intros hi x Hh; cbn [ways_repeat].
  - now apply more_run.
  - destruct (pl_rest x) as [|c s] eqn:Er.
    + cbn [PropRegex.ways flat_map]. rewrite ?Er. cbn [run]. assert (E : capped hi 0 = 0) by (destruct hi; cbn; lia). rewrite E. unfold counts. destruct greedy; reflexivity.
    + cbn [PropRegex.ways run]. rewrite ?Er. destruct (f c) eqn:Ec.
      * cbn [flat_map]. rewrite app_nil_r. cbn [PropRegex.ways] in IH.
        assert (K : forall m, map (adv x) (counts greedy (S lo) (S m)) = map (adv (mkPlace (S (pl_pos x)) (Some c) s (pl_groups x))) (counts greedy lo m)).
        { intros m. rewrite counts_S, map_map. apply map_ext. intros n. now apply adv_S. }
        destruct hi as [[|h]|]; [lia| |].
        -- cbn [option_map pred capped]. rewrite IH by lia. cbn [pl_rest capped]. change (Nat.min (S h) (S (run f s))) with (S (Nat.min h (run f s))). now rewrite K.
        -- cbn [option_map capped]. rewrite IH by exact I. cbn [pl_rest capped]. now rewrite K.
      * assert (E : capped hi 0 = 0) by (destruct hi; cbn; lia). rewrite E. unfold counts. destruct greedy; reflexivity.
Qed.

Notation bt := (bt sp wd dg fold ic).
(** if what follows cannot start with a character of the set then the run is read as a whole *)
Lemma bt_run_whole lo hi x k :
  (match hi with Some h => lo <= h | None => True end) ->
  (forall n, n < run f (pl_rest x) -> k (adv x n) = None) ->
  bt (RRep true lo hi (RChar neg l)) x k =
  if (lo <=? run f (pl_rest x)) && (match hi with Some h => run f (pl_rest x) <=? h | None => true end) then k (adv x (run f (pl_rest x))) else None.
Proof.
  intros Hh Hk. rewrite bt_ways, ways_run by exact Hh. rewrite first_some_map. unfold counts. set (m := run f (pl_rest x)) in *.
  destruct ((lo <=? m) && match hi with Some h => m <=? h | None => true end) eqn:E.
  - apply andb_true_iff in E as [E1 E2]. apply Nat.leb_le in E1. assert (Ec : capped hi m = m) by (destruct hi as [h|]; cbn; [apply Nat.leb_le in E2; lia|reflexivity]).
    rewrite Ec. replace (S m - lo) with (S (m - lo)) by lia. rewrite seq_split_last, rev_app_distr. cbn. replace (lo + (m - lo)) with m by lia.
    destruct (k (adv x m)) eqn:Em; [reflexivity|]. apply first_some_none. intros n Hn. apply in_rev, in_seq in Hn. apply Hk. lia.
  - apply first_some_none. intros n Hn. apply in_rev, in_seq in Hn. apply Hk. apply andb_false_iff in E as [E|E].
    + apply Nat.leb_gt in E. destruct hi as [h|]; cbn [capped] in Hn; lia.
    + destruct hi as [h|]; [|discriminate]. apply Nat.leb_gt in E. cbn [capped] in Hn. lia.
Qed.
(** if what follows always succeeds then a greedy repetition reads as much as it can *)
Lemma bt_run_greedy lo x k :
  lo <= run f (pl_rest x) -> k (adv x (run f (pl_rest x))) <> None ->
  bt (RRep true lo None (RChar neg l)) x k = k (adv x (run f (pl_rest x))).
Proof.
  intros Hl Hk. rewrite bt_ways, ways_run by exact I. rewrite first_some_map. unfold counts. set (m := run f (pl_rest x)) in *. cbn [capped].
  replace (S m - lo) with (S (m - lo)) by lia. rewrite seq_split_last, rev_app_distr. cbn. replace (lo + (m - lo)) with m by lia. now destruct (k (adv x m)).
Qed.
Lemma bt_run_short greedy lo hi x k :
  (match hi with Some h => lo <= h | None => True end) ->
  run f (pl_rest x) < lo -> bt (RRep greedy lo hi (RChar neg l)) x k = None.
Proof.
  intros Hh Hl. rewrite bt_ways, ways_run by exact Hh. apply first_some_none. intros y Hy. apply in_map_iff in Hy as (n & _ & Hn). exfalso.
  unfold counts in Hn. assert (In n (seq lo (S (capped hi (run f (pl_rest x))) - lo))) as Hi by (destruct greedy; [now apply in_rev|exact Hn]).
  apply in_seq in Hi. destruct hi; cbn [capped] in Hi; lia.
Qed.

(** a repetition of a set, as a relation *)
Notation reads := (reads sp wd dg fold ic).
Lemma reads_run greedy lo hi p i w q g : (match hi with Some h => lo <= h | None => True end) ->
  reads (RRep greedy lo hi (RChar neg l)) p i w q g <->
  g = [] /\ Forall (in_set sp wd dg fold ic neg l) w /\ lo <= length w /\ (match hi with Some h => length w <= h | None => True end).
Proof.
  intros Hh. split.
  - intros R. remember (RRep greedy lo hi (RChar neg l)) as r eqn:Er. revert greedy lo hi Er Hh. induction R; try discriminate; intros gr' lo' hi' Eq Hh; injection Eq as <- <- <- ->.
    + repeat split; [constructor|cbn; lia|]. destruct hi; cbn; [lia|exact I].
    + inversion R1; subst. specialize (IHR2 gr (pred lo) (option_map pred hi) eq_refl).
      assert (Hh' : match option_map pred hi with Some h => pred lo <= h | None => True end) by (destruct hi; cbn; [lia|exact I]).
      destruct (IHR2 Hh') as (-> & Hf & H1 & H2). split; [reflexivity|]. split; [now constructor|]. cbn [length app]. split; [lia|].
      destruct hi as [h|]; [|exact I]. cbn in H2. destruct lo; [destruct (H eq_refl) as [Hz _]; assert (h <> 0) by congruence; lia|lia].
  - intros (-> & Hf & H1 & H2). revert lo hi p i H1 H2 Hh. induction Hf as [|c w Hc Hf IH]; intros lo hi p i H1 H2 Hh.
    + cbn in H1. assert (lo = 0) as -> by lia. constructor.
    + change (c :: w) with ([c] ++ w). change (@nil (nat * (nat * nat))) with (@nil (nat * (nat * nat)) ++ []).
      apply rd_more; [|now constructor|apply IH].
      * intros _. split; [|discriminate]. intros ->. cbn in H2. lia.
      * cbn in H1. lia.
      * destruct hi as [h|]; [|exact I]. cbn in *. lia.
      * destruct hi as [h|]; [|exact I]. cbn. lia.
Qed.
End Run.

(** *** Reading by cases *)
Section Cases.
Variables sp wd dg : N -> bool.
Variable fold : N -> N.
Variable ic : bool.
Notation reads := (reads sp wd dg fold ic).
Notation in_set := (in_set sp wd dg fold ic).

Lemma reads_empty p i w q g : reads REmpty p i w q g <-> w = [] /\ g = [].
Proof. split; [intros R; inversion R; auto|intros [-> ->]; constructor]. Qed.
Lemma reads_char neg l p i w q g : reads (RChar neg l) p i w q g <-> exists c, w = [c] /\ g = [] /\ in_set neg l c.
Proof. split; [intros R; inversion R; subst; eauto|intros (c & -> & -> & H); now constructor]. Qed.
Lemma reads_start p i w q g : reads RStart p i w q g <-> w = [] /\ g = [] /\ i = 0.
Proof. split; [intros R; inversion R; auto|intros (-> & -> & ->); constructor]. Qed.
Lemma reads_end p i w q g : reads REnd p i w q g <-> w = [] /\ g = [] /\ (q = [] \/ q = [10%N]).
Proof. split; [intros R; inversion R; auto|intros (-> & -> & H); now constructor]. Qed.
Lemma reads_bound p i w q g : reads (RBound false) p i w q g <-> w = [] /\ g = [] /\ boundary wd p q.
Proof. split; [intros R; inversion R; auto|intros (-> & -> & H); now constructor]. Qed.
Lemma reads_seq a b p i w q g : reads (RSeq a b) p i w q g <->
  exists w1 w2 g1 g2, w = w1 ++ w2 /\ g = g2 ++ g1 /\ reads a p i w1 (w2 ++ q) g1 /\ reads b (after p w1) (i + length w1) w2 q g2.
Proof.
  split; [intros R; inversion R; subst; do 4 eexists; eauto|]. intros (w1 & w2 & g1 & g2 & -> & -> & R1 & R2). now constructor.
Qed.
Lemma reads_alt a b p i w q g : reads (RAlt a b) p i w q g <-> reads a p i w q g \/ reads b p i w q g.
Proof. split; [intros R; inversion R; auto|intros [R|R]; [now apply rd_left|now apply rd_right]]. Qed.
Lemma reads_group n a p i w q g : reads (RGroup n a) p i w q g <-> exists g', g = (n, (i, i + length w)) :: g' /\ reads a p i w q g'.
Proof. split; [intros R; inversion R; subst; eauto|intros (g' & -> & R); now constructor]. Qed.
Lemma reads_opt gr a p i w q g : reads (RRep gr 0 (Some 1) a) p i w q g <-> (w = [] /\ g = []) \/ (w <> [] /\ reads a p i w q g).
Proof.
  split.
  - intros R. inversion R; subst; [now left|]. right. match goal with K : 0 = 0 -> _ |- _ => destruct (K eq_refl) as [_ Hw] end.
    match goal with K : PropRegex.reads _ _ _ _ _ (RRep _ _ _ _) _ _ _ _ _ |- _ => cbn in K; inversion K; subst end.
    + rewrite app_nil_r. cbn [app] in *. split; assumption.
    + match goal with K : 0 = 0 -> _ |- _ => destruct (K eq_refl) as [K1 _]; now destruct K1 end.
  - intros [[-> ->]|[Hw R]]; [constructor|]. rewrite <- (app_nil_r w). change g with ([] ++ g). apply rd_more.
    + intros _. split; [discriminate|exact Hw].
    + exact R.
    + constructor.
Qed.
Lemma in_lit a c : in_set false [ILit a] c <-> same_char fold ic c a.
Proof. cbn. split; [intros (i & [<-|[]] & H); exact H|]. intros H. exists (ILit a). auto. Qed.
Lemma in_kind k c : in_set false [IKind k false] c <-> of_kind sp wd dg k c.
Proof. cbn. split; [intros (i & [<-|[]] & H); exact H|]. intros H. exists (IKind k false). auto. Qed.
Lemma in_not_kind k c : in_set false [IKind k true] c <-> ~ of_kind sp wd dg k c.
Proof. cbn. split; [intros (i & [<-|[]] & H); exact H|]. intros H. exists (IKind k true). auto. Qed.
Lemma in_any c : in_set true [ILit 10%N] c <-> ~ same_char fold ic c 10.
Proof. cbn. split; [intros H; apply (H (ILit 10%N)); auto|]. intros H i [<-|[]]. exact H. Qed.
End Cases.
Lemma reads_lit sp wd dg fold a p i w q g : reads sp wd dg fold false (RChar false [ILit a]) p i w q g <-> w = [a] /\ g = [].
Proof.
  rewrite reads_char. split; [intros (c & -> & -> & H); apply in_lit in H; cbn in H; now subst|]. intros [-> ->]. exists a. repeat split. now apply in_lit.
Qed.

Ltac read_cases :=
  repeat match goal with
  | H : PropRegex.reads _ _ _ _ _ (RSeq _ _) _ _ _ _ _ |- _ =>
      let w1 := fresh "w" in let w2 := fresh "w" in let g1 := fresh "g" in let g2 := fresh "g" in let R := fresh "R" in
      apply reads_seq in H as (w1 & w2 & g1 & g2 & -> & -> & H & R)
  | H : PropRegex.reads _ _ _ _ _ REmpty _ _ _ _ _ |- _ => apply reads_empty in H as [-> ->]
  | H : PropRegex.reads _ _ _ _ _ (RLit _) _ _ _ _ _ |- _ => unfold RLit in H
  | H : PropRegex.reads _ _ _ _ _ RAny _ _ _ _ _ |- _ => unfold RAny in H
  | H : PropRegex.reads _ _ _ _ _ (RKind _ _) _ _ _ _ _ |- _ => unfold RKind in H
  | H : PropRegex.reads _ _ _ _ false (RChar false [ILit _]) _ _ _ _ _ |- _ => apply reads_lit in H as [-> ->]
  | H : PropRegex.reads _ _ _ _ _ (RGroup _ _) _ _ _ _ _ |- _ => let g := fresh "g" in apply reads_group in H as (g & -> & H)
  | H : PropRegex.reads _ _ _ _ _ REnd _ _ _ _ _ |- _ => let E := fresh "E" in apply reads_end in H as (-> & -> & E)
  | H : PropRegex.reads _ _ _ _ _ (RBound false) _ _ _ _ _ |- _ => let E := fresh "E" in apply reads_bound in H as (-> & -> & E)
  | H : PropRegex.reads _ _ _ _ _ RStart _ _ _ _ _ |- _ => let E := fresh "E" in apply reads_start in H as (-> & -> & E)
  | H : PropRegex.reads _ _ _ _ _ (RAlt _ _) _ _ _ _ _ |- _ => apply reads_alt in H as [H|H]
  | H : PropRegex.reads _ _ _ _ _ (RRep _ _ _ (RLit _)) _ _ _ _ _ |- _ => unfold RLit in H
  | H : PropRegex.reads _ _ _ _ _ (RRep _ _ _ RAny) _ _ _ _ _ |- _ => unfold RAny in H
  | H : PropRegex.reads _ _ _ _ _ (RRep _ _ _ (RKind _ _)) _ _ _ _ _ |- _ => unfold RKind in H
  | H : PropRegex.reads _ _ _ _ _ (RRep _ _ _ (RChar _ _)) _ _ _ _ _ |- _ =>
      let L := fresh "L" in let F := fresh "F" in
      apply reads_run in H as (-> & F & L); [|first [exact I|lia]]
  | H : PropRegex.reads _ _ _ _ _ (RRep _ 0 (Some 1) _) _ _ _ _ _ |- _ =>
      let K := fresh "K" in apply reads_opt in H as [[-> ->]|[K H]]
  end.

(** *** Making readings *)
Section Make.
Variables sp wd dg : N -> bool.
Variable fold : N -> N.
Variable ic : bool.
Notation reads := (reads sp wd dg fold ic).
Lemma mk_seq a b p i w1 w2 w q g1 g2 g : w = w1 ++ w2 -> g = g2 ++ g1 ->
  reads a p i w1 (w2 ++ q) g1 -> reads b (after p w1) (i + length w1) w2 q g2 -> reads (RSeq a b) p i w q g.
Proof. intros -> -> R1 R2. now constructor. Qed.
Lemma mk_lit c p i q : reads (RChar false [ILit c]) p i [c] q [].
Proof. constructor. apply in_lit. unfold same_char. now destruct ic. Qed.
Lemma mk_run gr lo hi neg l p i w q : (match hi with Some h => lo <= h | None => True end) ->
  Forall (in_set sp wd dg fold ic neg l) w -> lo <= length w -> (match hi with Some h => length w <= h | None => True end) ->
  reads (RRep gr lo hi (RChar neg l)) p i w q [].
Proof. intros Hh H1 H2 H3. apply reads_run; auto. Qed.
Lemma mk_opt gr a p i w q g : w <> [] -> reads a p i w q g -> reads (RRep gr 0 (Some 1) a) p i w q g.
Proof. intros H R. apply reads_opt. auto. Qed.
End Make.
