(** C30, C31: word matching and string views *)
From Verif Require Import Base ModelFuzzyMatch PropFuzzyMatch ModelWordMatch.
From Coq Require Import Sorted.
Open Scope Z_scope.

(* ---------------------------------------------------------------- *)
(** ** C30: splitting *)

(** where each part of a list of texts starts *)
Fixpoint offsets (i : Z) (l : list str) : list Z :=
  match l with [] => [] | w :: l' => i :: offsets (i + slen w) l' end.

Lemma slen_app {A} (a b : list A) : slen (a ++ b) = slen a + slen b.
Proof. unfold slen. rewrite app_length. lia. Qed.
Lemma slen_nonneg {A} (a : list A) : 0 <= slen a.
Proof. unfold slen. lia. Qed.
Lemma offsets_app l1 : forall i l2, offsets i (l1 ++ l2) = offsets i l1 ++ offsets (i + slen (concat l1)) l2.
Proof.
  induction l1 as [|w l1 IH]; intros i l2; cbn [app offsets concat].
  - now rewrite Z.add_0_r.
  - rewrite IH, slen_app. cbn [app]. do 2 f_equal. f_equal. lia.
Qed.
Lemma enumerate_app {A} (l1 l2 : list A) : enumerate (l1 ++ l2) =
  enumerate l1 ++ combine (map Z.of_nat (seq (length l1) (length l2))) l2.
Proof.
  unfold enumerate. rewrite app_length, seq_app, map_app. cbn [Nat.add].
  set (k := map Z.of_nat (seq 0 (length l1))). assert (Hk : length k = length l1) by (unfold k; now rewrite map_length, seq_length).
  clearbody k. set (q := map Z.of_nat (seq (length l1) (length l2))). clearbody q.
  revert k Hk. induction l1 as [|x l1 IH]; intros [|y k] Hk; try discriminate; [reflexivity|].
  cbn [app combine]. f_equal. apply IH. now injection Hk.
Qed.

(** the parts: separators, and texts without separators *)
Definition part_ok (sep w : str) : Prop :=
  (exists c, w = [c] /\ in_chars c sep = true) \/ (w <> [] /\ Forall (fun c => in_chars c sep = false) w).
(** no two texts next to each other *)
Fixpoint alternating (sep : str) (l : list str) : Prop :=
  match l with
  | w :: (w' :: _) as l' =>
      (match w with c :: _ => in_chars c sep = true | [] => False end \/
       match w' with c :: _ => in_chars c sep = true | [] => False end) /\ alternating sep l'
  | _ => True
  end.

Section Split.
Variables (sep : str).
Lemma alternating_app l1 : forall l2, alternating sep l1 -> alternating sep l2 ->
  match rev l1, l2 with
  | w :: _, w' :: _ =>
      match w with c :: _ => in_chars c sep = true | [] => False end \/
      match w' with c :: _ => in_chars c sep = true | [] => False end
  | _, _ => True end -> alternating sep (l1 ++ l2).
Proof.
  induction l1 as [|w l1 IH]; intros l2 H1 H2 H; [exact H2|]. destruct l1 as [|w2 l1].
  - cbn [app]. destruct l2 as [|w' l2]; [exact I|]. split; [exact H|exact H2].
  - cbn [app]. destruct H1 as [H1 H1']. split; [exact H1|]. apply (IH l2 H1' H2).
    cbn [rev] in *. destruct (rev l1 ++ [w2]) as [|z zs] eqn:E; [destruct (rev l1); discriminate|]. exact H.
Qed.

(* state of the loop after [done]: the tokens cover [done] except the pending text *)
Definition sp_inv (s done : str) (st : Z * list (Z * str)) : Prop :=
  exists parts pend, map snd (snd st) = parts /\ map fst (snd st) = offsets 0 parts /\
    done = concat parts ++ pend /\ fst st = slen (concat parts) /\
    Forall (part_ok sep) parts /\ Forall (fun c => in_chars c sep = false) pend /\ alternating sep parts /\
    match rev parts with w :: _ => match w with c :: _ => in_chars c sep = true | [] => False end | [] => True end.
Lemma split_fold s rest : forall done st, s = done ++ rest -> sp_inv s done st ->
  sp_inv s s (fold_left (split_step s sep true) (combine (map Z.of_nat (seq (length done) (length rest))) rest) st).
Proof.
  induction rest as [|c rest IH]; intros done st E H.
  - cbn. rewrite app_nil_r in E. subst s. exact H.
  - cbn [length seq map combine fold_left].
    replace (S (length done)) with (length (done ++ [c])) by (rewrite app_length; cbn; lia).
    apply IH; [now rewrite <- app_assoc|].
    destruct st as [prev tokens]. destruct H as (parts & pend & H1 & H2 & H3 & H4 & H5 & H6 & H7 & H8).
    cbn [fst snd] in *. unfold split_step. cbv beta iota zeta. destruct (in_chars c sep) eqn:Ec.
    + assert (Hd : Z.of_nat (length done) = slen (concat parts) + slen pend) by (rewrite H3; unfold slen; rewrite app_length; lia).
      match goal with |- context [tokens ++ ?e] => set (mid := e) end.
      assert (Hmid : mid = match pend with [] => [] | _ => [(prev, pend)] end).
      { unfold mid. rewrite Hd. clear mid Hd.
        subst prev. destruct pend as [|p pend].
        - change (slen (@nil N)) with 0. rewrite Z.add_0_r, Z.ltb_irrefl. reflexivity.
        - destruct (_ <? _) eqn:El; [|apply Z.ltb_ge in El; unfold slen in El; cbn [length] in El; lia].
          do 2 f_equal. rewrite E, H3, <- app_assoc. apply py_slice_mid. }
      clearbody mid.
      set (mp := match pend with [] => [] | _ => [pend] end).
      assert (Hc : concat (parts ++ mp ++ [[c]]) = done ++ [c]).
      { rewrite !concat_app, H3, <- app_assoc. unfold mp. destruct pend; cbn; rewrite ?app_nil_r; reflexivity. }
      exists (parts ++ mp ++ [[c]]), []. cbn [fst snd]. rewrite Hc.
      split; [rewrite !map_app, H1, Hmid, <- app_assoc; unfold mp; destruct pend; reflexivity|].
      split. { rewrite !map_app, H2, Hmid, !offsets_app, <- app_assoc. f_equal. rewrite Z.add_0_l, H4.
               rewrite Hd. unfold mp. destruct pend; cbn [map offsets concat app fst]; rewrite ?app_nil_r.
               - reflexivity.
               - reflexivity. }
      split; [now rewrite app_nil_r|]. split; [rewrite slen_app; reflexivity|].
      split. { apply Forall_app. split; [exact H5|]. apply Forall_app. split.
               - unfold mp. destruct pend as [|p pend]; constructor; [|constructor]. right. split; [discriminate|exact H6].
               - constructor; [|constructor]. left. eauto. }
      split; [constructor|].
      assert (Hrev : forall x : list str, rev (x ++ [[c]]) = [c] :: rev x) by (intros x; now rewrite rev_app_distr).
      split.
      { apply alternating_app; [exact H7| |].
        - unfold mp. destruct pend as [|p pend]; [exact I|]. split; [now right|exact I].
        - destruct (rev parts) as [|w ws]; [exact I|]. destruct (mp ++ [[c]]); [exact I|]. now left. }
      rewrite app_assoc, Hrev. exact Ec.
    + exists parts, (pend ++ [c]). cbn [fst snd]. repeat (split; [assumption|]).
      split; [rewrite H3, app_assoc; reflexivity|]. split; [exact H4|]. split; [exact H5|].
      split; [apply Forall_app; split; [exact H6|constructor; [exact Ec|constructor]]|]. split; assumption.
Qed.
(** Splitting cuts the text into separators and maximal texts between them. *)
Theorem C30_split s : let l := split_with_offset s sep true in
  concat (map snd l) = s /\ map fst l = offsets 0 (map snd l) /\
  Forall (part_ok sep) (map snd l) /\ alternating sep (map snd l).
Proof.
  unfold split_with_offset.
  pose proof (split_fold s s [] (0, []) eq_refl) as H. cbn [length] in H. fold (enumerate s) in H.
  assert (H0 : sp_inv s [] (0, [])).
  { exists [], []. repeat split; constructor. }
  specialize (H H0). destruct (fold_left (split_step s sep true) (enumerate s) (0, [])) as [prev tokens].
  destruct H as (parts & pend & H1 & H2 & H3 & H4 & H5 & H6 & H7 & H8). cbn [fst snd] in *. cbn zeta.
  assert (Hl : slen s = prev + slen pend) by (rewrite H3 at 1; rewrite slen_app, H4; reflexivity).
  destruct (prev <? slen s) eqn:E.
  - apply Z.ltb_lt in E. assert (Hp : pend <> []) by (intros ->; change (slen (@nil N)) with 0 in Hl; lia).
    assert (Ef : py_from s prev = pend).
    { unfold py_from. rewrite Hl, H4. rewrite H3 at 1. rewrite <- (app_nil_r pend) at 1. apply py_slice_mid. }
    rewrite !map_app. cbn [map fst snd]. rewrite Ef, H1.
    split; [rewrite concat_app; cbn; rewrite app_nil_r; now rewrite <- H3|].
    split; [rewrite offsets_app, H2; cbn [offsets]; rewrite Z.add_0_l, H4; reflexivity|].
    split; [apply Forall_app; split; [exact H5|constructor; [right; split; assumption|constructor]]|].
    apply alternating_app; [exact H7|exact I|]. destruct (rev parts); [exact I|]. now left.
  - apply Z.ltb_ge in E. assert (Hp : pend = []) by (destruct pend; [reflexivity|]; unfold slen in *; cbn [length] in Hl; lia).
    subst pend. rewrite app_nil_r in H3. rewrite H1. repeat split; try assumption; congruence.
Qed.
End Split.

(* ---------------------------------------------------------------- *)
(** ** C30: blocks *)

(** contract of difflib's matcher: blocks of equal words, in order, within bounds *)
Definition word_in_bounds (a b : list str) (x : block) : Prop :=
  0 <= b_a x /\ 0 <= b_b x /\ 0 <= b_n x /\ b_a x + b_n x <= slen a /\ b_b x + b_n x <= slen b.
Definition word_pairs (a b : list str) (x : block) : Prop :=
  forall k, 0 <= k < b_n x -> exists w, py_at a (b_a x + k) = Ok w /\ py_at b (b_b x + k) = Ok w.
Definition words_ok (words : list str -> list str -> list block) : Prop := forall a b,
  Forall (word_in_bounds a b) (words a b) /\ Forall (word_pairs a b) (words a b) /\ StronglySorted follows (words a b).

(* position of the k-th word *)
Definition pos (l : list str) (k : nat) : Z := slen (concat (firstn k l)).
Lemma offsets_nth l k : (k < length l)%nat -> forall i, nth_error (offsets i l) k = Some (i + pos l k).
Proof.
  revert k. induction l as [|w l IH]; intros k Hk i; [cbn in Hk; lia|]. destruct k as [|k]; unfold pos; cbn [firstn concat offsets nth_error].
  - now rewrite Z.add_0_r.
  - cbn in Hk. rewrite IH by lia. unfold pos. rewrite slen_app. f_equal. lia.
Qed.
Lemma offsets_length l i : length (offsets i l) = length l.
Proof. revert i. induction l; intros; cbn; [reflexivity|now rewrite IHl]. Qed.
Lemma sum_words (l : list str) x : forall n k, 0 <= x -> 0 <= k -> x + k + Z.of_nat n <= slen l -> forall n0,
  foldM (fun n k => do w <- py_at l (x + k) ;; Ok (n + slen w)) n0
    (map (fun j => k + Z.of_nat j) (seq 0 n)) = Ok (n0 + slen (concat (firstn n (skipn (Z.to_nat (x + k)) l)))).
Proof.
  induction n as [|n IH]; intros k Hx Hk Hb n0.
  - cbn. now rewrite Z.add_0_r.
  - cbn [seq map foldM]. rewrite Z.add_0_r. rewrite py_at_pos by lia.
    destruct (nth_error l (Z.to_nat (x + k))) as [w|] eqn:E.
    2: { apply nth_error_None in E. unfold slen in Hb. lia. }
    cbn [bind]. rewrite <- seq_shift, map_map.
    replace (map (fun j => k + Z.of_nat (S j)) (seq 0 n)) with (map (fun j => (k + 1) + Z.of_nat j) (seq 0 n)) by (apply map_ext; intros; lia).
    rewrite IH by lia. f_equal. apply nth_error_split in E as (l1 & l2 & -> & El).
    replace (Z.to_nat (x + (k + 1))) with (S (Z.to_nat (x + k))) by lia. rewrite <- El.
    assert (A : skipn (length l1) (l1 ++ w :: l2) = w :: l2) by (rewrite skipn_app, skipn_all, Nat.sub_diag; reflexivity).
    assert (B : skipn (S (length l1)) (l1 ++ w :: l2) = l2).
    { clear. induction l1; [reflexivity|]. exact IHl1. }
    rewrite A, B. cbn [firstn concat]. rewrite slen_app. lia.
Qed.
Lemma pos_add l i n : pos l (i + n) = pos l i + slen (concat (firstn n (skipn i l))).
Proof.
  unfold pos. rewrite <- slen_app, <- concat_app. do 2 f_equal. rewrite <- (firstn_skipn i l) at 1.
  destruct (Nat.le_gt_cases i (length l)) as [H|H].
  - rewrite firstn_app, firstn_length, Nat.min_l by exact H. replace (i + n - i)%nat with n by lia.
    f_equal. apply firstn_all2. rewrite firstn_length. lia.
  - rewrite (skipn_all2 l) by lia. rewrite !firstn_nil, !app_nil_r. rewrite firstn_firstn, Nat.min_r by lia. reflexivity.
Qed.
Lemma pos_mono l i j : (i <= j)%nat -> pos l i <= pos l j.
Proof. intros H. replace j with (i + (j - i))%nat by lia. rewrite pos_add. pose proof (slen_nonneg (concat (firstn (j - i) (skipn i l)))). lia. Qed.
Lemma pos_end l i : (i <= length l)%nat -> pos l i <= slen (concat l).
Proof.
  intros H. replace (slen (concat l)) with (pos l (length l)) by (unfold pos; now rewrite firstn_all). now apply pos_mono.
Qed.

Section Blocks.
Variables (words : list str -> list str -> list block) (sep a b : str).
Hypothesis Hwords : words_ok words.
Definition aws := map snd (split_with_offset a sep true).
Definition bws := map snd (split_with_offset b sep true).
Lemma aws_facts : concat aws = a /\ map fst (split_with_offset a sep true) = offsets 0 aws.
Proof. destruct (C30_split sep a) as (H1 & H2 & _). split; assumption. Qed.
Lemma bws_facts : concat bws = b /\ map fst (split_with_offset b sep true) = offsets 0 bws.
Proof. destruct (C30_split sep b) as (H1 & H2 & _). split; assumption. Qed.

(* one block in characters *)
Definition char_block (x : block) : block :=
  (pos aws (Z.to_nat (b_a x)), pos bws (Z.to_nat (b_b x)),
   slen (concat (firstn (Z.to_nat (b_n x)) (skipn (Z.to_nat (b_a x)) aws)))).
Lemma words_equal x : word_in_bounds aws bws x -> word_pairs aws bws x ->
  firstn (Z.to_nat (b_n x)) (skipn (Z.to_nat (b_a x)) aws) = firstn (Z.to_nat (b_n x)) (skipn (Z.to_nat (b_b x)) bws).
Proof.
  intros Hb Hp. unfold word_in_bounds, slen in Hb.
  apply (nth_ext _ _ [] []).
  - rewrite !firstn_length, !skipn_length. lia.
  - intros k Hk. rewrite firstn_length, skipn_length in Hk.
    destruct (Hp (Z.of_nat k)) as (w & W1 & W2); [lia|]. rewrite !py_at_pos in W1, W2 by lia.
    assert (G : forall l i, nth_error l (i + k) = Some w -> nth k (firstn (Z.to_nat (b_n x)) (skipn i l)) [] = w).
    { intros l i H. apply nth_error_nth. rewrite <- nth_skipn in H. rewrite <- H.
      rewrite <- (firstn_skipn (Z.to_nat (b_n x)) (skipn i l)) at 2. symmetry. apply nth_error_app1.
      assert (k < length (skipn i l))%nat by (apply nth_error_Some; congruence). rewrite firstn_length. lia. }
    rewrite (G aws), (G bws); [reflexivity| |].
    + replace (Z.to_nat (b_b x) + k)%nat with (Z.to_nat (b_b x + Z.of_nat k)) by lia. destruct (nth_error bws _); [congruence|discriminate].
    + replace (Z.to_nat (b_a x) + k)%nat with (Z.to_nat (b_a x + Z.of_nat k)) by lia. destruct (nth_error aws _); [congruence|discriminate].
Qed.
Lemma word_blocks_eq : word_blocks words sep a b =
  Ok (map char_block (filter (fun x => negb (b_n x =? 0)) (words aws bws))).
Proof.
  unfold word_blocks. fold aws bws. destruct (Hwords aws bws) as (H1 & H2 & _).
  destruct aws_facts as [A1 A2]. destruct bws_facts as [B1 B2].
  induction (words aws bws) as [|x l IH]; [reflexivity|]. inversion H1 as [|? ? X1 Y1]; inversion H2 as [|? ? X2 Y2]; subst.
  specialize (IH Y1 Y2). cbn [filter]. destruct (b_n x =? 0) eqn:E; cbn [negb]; [exact IH|]. cbn [mapM map].
  unfold word_in_bounds in X1. apply Z.eqb_neq in E. fold aws bws.
  rewrite A2, B2, !py_at_pos by lia. unfold slen in X1.
  rewrite !offsets_nth by lia. cbn [bind].
  replace (py_range 0 (b_n x)) with (map (fun j => 0 + Z.of_nat j) (seq 0 (Z.to_nat (b_n x)))) by (unfold py_range; do 3 f_equal; lia).
  rewrite (sum_words aws (b_a x) (Z.to_nat (b_n x)) 0) by (unfold slen; lia). cbn [bind].
  rewrite A2, B2 in IH. fold aws bws in IH. rewrite IH. cbn [bind]. unfold char_block. rewrite !Z.add_0_l, Z.add_0_r. reflexivity.
Qed.

Lemma at_inside (l : list str) i n k : 0 <= k < slen (concat (firstn n (skipn i l))) ->
  py_at (concat l) (pos l i + k) = py_at (concat (firstn n (skipn i l))) k.
Proof.
  intros Hk. pose proof (slen_nonneg (concat (firstn i l))) as Hp. change (0 <= pos l i) in Hp. rewrite !py_at_pos by lia.
  assert (E : concat l = concat (firstn i l) ++ concat (firstn n (skipn i l)) ++ concat (skipn n (skipn i l))).
  { rewrite <- concat_app, firstn_skipn, <- concat_app, firstn_skipn. reflexivity. }
  rewrite E. unfold pos, slen in *. rewrite nth_error_app2 by lia. rewrite nth_error_app1 by lia.
  replace (Z.to_nat (Z.of_nat (length (concat (firstn i l))) + k) - length (concat (firstn i l)))%nat with (Z.to_nat k) by lia. reflexivity.
Qed.

(** The blocks are non-empty, within bounds, in order and pair equal characters. *)
Theorem C30_blocks : exists l, word_blocks words sep a b = Ok l /\
  valid a b l /\ Forall (pairs a b) l /\ Forall (fun x => 0 < b_n x) l.
Proof.
  rewrite word_blocks_eq. eexists. split; [reflexivity|]. destruct (Hwords aws bws) as (H1 & H2 & H3).
  destruct aws_facts as [A1 _]. destruct bws_facts as [B1 _].
  set (f := fun x : block => negb (b_n x =? 0)).
  assert (Hin : forall x, In x (filter f (words aws bws)) ->
     word_in_bounds aws bws x /\ word_pairs aws bws x /\ b_n x <> 0).
  { intros x Hx. apply filter_In in Hx as [Hx Hf]. rewrite Forall_forall in H1, H2. repeat split; try apply H1; auto.
    apply negb_true_iff, Z.eqb_neq in Hf. exact Hf. }
  assert (Hend : forall x, word_in_bounds aws bws x -> word_pairs aws bws x ->
    b_a (char_block x) + b_n (char_block x) = pos aws (Z.to_nat (b_a x + b_n x)) /\
    b_b (char_block x) + b_n (char_block x) = pos bws (Z.to_nat (b_b x + b_n x))).
  { intros x X1 X2. pose proof (words_equal x X1 X2) as E. unfold word_in_bounds in X1. unfold char_block, b_a, b_b, b_n in *. cbn [fst snd] in *.
    split; [|rewrite E]; rewrite <- pos_add; f_equal; lia. }
  split; [split|split].
  - rewrite Forall_forall. intros y Hy. apply in_map_iff in Hy as (x & <- & Hx). destruct (Hin x Hx) as (X1 & X2 & X3).
    destruct (Hend x X1 X2) as [E1 E2]. unfold word_in_bounds, slen in X1. unfold in_bounds. rewrite E1, E2.
    rewrite <- A1 at 1. rewrite <- B1 at 1.
    unfold char_block. unfold b_a at 1, b_b at 1, b_n at 1. cbn [fst snd]. unfold pos at 1 2. repeat split; try apply slen_nonneg; apply pos_end; lia.
  - assert (Hs : StronglySorted follows (filter f (words aws bws))) by now apply filter_sorted.
    induction Hs as [|x l Hs IH Hf]; cbn [map]; constructor; [apply IH; intros; apply Hin; now right|].
    rewrite Forall_forall in *. intros y Hy. apply in_map_iff in Hy as (z & <- & Hz). specialize (Hf z Hz).
    destruct (Hin x ltac:(now left)) as (X1 & X2 & X3). destruct (Hin z ltac:(now right)) as (Z1 & Z2 & Z3).
    destruct (Hend x X1 X2) as [E1 E2]. unfold follows in *. rewrite E1, E2. change (pos aws (Z.to_nat (b_a x + b_n x)) <= pos aws (Z.to_nat (b_a z)) /\ pos bws (Z.to_nat (b_b x + b_n x)) <= pos bws (Z.to_nat (b_b z))).
    unfold word_in_bounds in X1, Z1. split; apply pos_mono; lia.
  - rewrite Forall_forall. intros y Hy. apply in_map_iff in Hy as (x & <- & Hx). destruct (Hin x Hx) as (X1 & X2 & X3).
    pose proof (words_equal x X1 X2) as E. intros k Hk. unfold char_block, b_a, b_b, b_n in *. cbn [fst snd] in *.
    pose proof (at_inside aws _ _ _ Hk) as Q1. rewrite A1 in Q1. rewrite Q1. rewrite E in Hk |- *.
    pose proof (at_inside bws _ _ _ Hk) as Q2. rewrite B1 in Q2. rewrite Q2.
    rewrite py_at_pos by lia. destruct (nth_error _ (Z.to_nat k)) as [c|] eqn:Ec; [eauto|]. apply nth_error_None in Ec.
    unfold slen in Hk. lia.
  - rewrite Forall_forall. intros y Hy. apply in_map_iff in Hy as (x & <- & Hx). destruct (Hin x Hx) as (X1 & X2 & X3).
    unfold word_in_bounds in X1. unfold char_block, b_n. cbn [snd]. fold (b_n x).
    destruct (C30_split sep a) as (_ & _ & Hok & _). fold aws in Hok. unfold slen in X1.
    destruct (skipn (Z.to_nat (b_a x)) aws) as [|w ws] eqn:Es.
    { apply (f_equal (@length _)) in Es. rewrite skipn_length in Es. cbn in Es. lia. }
    assert (Hw : In w aws) by (rewrite <- (firstn_skipn (Z.to_nat (b_a x)) aws), Es; apply in_or_app; right; now left).
    rewrite Forall_forall in Hok. specialize (Hok w Hw).
    destruct (Z.to_nat (b_n x)) as [|n] eqn:En; [lia|]. cbn [firstn concat]. rewrite slen_app.
    pose proof (slen_nonneg (concat (firstn n ws))).
    assert (w <> []) by (destruct Hok as [(c & -> & _)|[Hok _]]; [discriminate|exact Hok]).
    destruct w; [congruence|]. unfold slen at 1. cbn [length]. lia.
Qed.
End Blocks.

Example C30_ex_split : split_with_offset (u "ab, c") default_separators true =
  [(0, u "ab"); (2, u ","); (3, u " "); (4, u "c")].
Proof. reflexivity. Qed.
(** a matcher that meets the contract: it only reports a common first word *)
Definition first_word (a b : list str) : list block :=
  match a, b with w :: _, w' :: _ => if streq w w' then [(0, 0, 1)] else [] | _, _ => [] end.
Example C30_ex_ok : words_ok first_word.
Proof.
  intros a b. destruct a as [|w a], b as [|w' b]; cbn [first_word]; try (repeat split; constructor).
  destruct (streq w w') eqn:E; [|repeat split; constructor]. apply streq_true in E. subst w'.
  split; [|split].
  - constructor; [|constructor]. unfold word_in_bounds, slen, b_a, b_b, b_n. cbn [fst snd length]. lia.
  - constructor; [|constructor]. intros k Hk. unfold b_n in Hk. cbn in Hk. assert (k = 0) as -> by lia.
    exists w. split; reflexivity.
  - repeat constructor.
Qed.
Example C30_ex : word_blocks first_word default_separators (u "abc, d") (u "abc d") = Ok [(0, 0, 3)].
Proof. reflexivity. Qed.

(* ---------------------------------------------------------------- *)
(** ** C31: string views *)

(** the characters of [s] whose flag is set *)
Fixpoint kept (s : str) (inv : list bool) : str :=
  match s, inv with
  | c :: s', true :: inv' => c :: kept s' inv'
  | _ :: s', false :: inv' => kept s' inv'
  | _, _ => []
  end.
Lemma view_kept s : forall inv, v_str (string_view s inv) = kept s inv.
Proof.
  unfold string_view. cbn [v_str]. induction s as [|c s IH]; intros [|[] inv]; cbn; try reflexivity; [f_equal|]; apply IH.
Qed.
Fixpoint flag_positions (i : Z) (inv : list bool) : list Z :=
  match inv with [] => [] | true :: l => i :: flag_positions (i + 1) l | false :: l => flag_positions (i + 1) l end.
Lemma view_idx_gen inv : forall k, map fst (filter snd (combine (map Z.of_nat (seq k (length inv))) inv)) = flag_positions (Z.of_nat k) inv.
Proof.
  induction inv as [|[] inv IH]; intros k; cbn [length seq map combine filter snd flag_positions fst]; [reflexivity| |];
    rewrite IH; replace (Z.of_nat (S k)) with (Z.of_nat k + 1) by lia; reflexivity.
Qed.
Lemma view_idx s inv : v_idx (string_view s inv) = flag_positions 0 inv.
Proof. unfold string_view, enumerate. cbn [v_idx]. apply view_idx_gen. Qed.

Lemma kept_app s1 : forall i1 s2 i2, length s1 = length i1 -> kept (s1 ++ s2) (i1 ++ i2) = kept s1 i1 ++ kept s2 i2.
Proof.
  induction s1 as [|c s1 IH]; intros [|[] i1] s2 i2 H; try discriminate; [reflexivity| |]; cbn; rewrite IH by (now injection H); reflexivity.
Qed.
Lemma kept_length s : forall inv i, length s = length inv -> length (kept s inv) = length (flag_positions i inv).
Proof.
  induction s as [|c s IH]; intros [|[] inv] i H; try discriminate; [reflexivity| |]; cbn; rewrite (IH inv (i + 1)) by (now injection H); reflexivity.
Qed.
Lemma positions_spec inv : forall i p, In p (flag_positions i inv) <-> i <= p /\ nth_error inv (Z.to_nat (p - i)) = Some true.
Proof.
  induction inv as [|f inv IH]; intros i p.
  - cbn. split; [intros []|]. intros [_ H]. destruct (Z.to_nat (p - i)); discriminate.
  - assert (Hrec : In p (flag_positions (i + 1) inv) <-> i < p /\ nth_error (f :: inv) (Z.to_nat (p - i)) = Some true).
    { rewrite IH. split; intros [H1 H2]; (split; [lia|]).
      - replace (Z.to_nat (p - i)) with (S (Z.to_nat (p - (i + 1)))) by lia. exact H2.
      - replace (Z.to_nat (p - i)) with (S (Z.to_nat (p - (i + 1)))) in H2 by lia. exact H2. }
    destruct f; cbn [flag_positions].
    + cbn [In]. rewrite Hrec. split.
      * intros [<-|[H1 H2]]; [split; [lia|]; now rewrite Z.sub_diag|]. split; [lia|exact H2].
      * intros [H1 H2]. destruct (Z.eq_dec i p); [now left|]. right. split; [lia|exact H2].
    + rewrite Hrec. split; intros [H1 H2]; (split; [|exact H2]); [lia|].
      destruct (Z.eq_dec i p) as [->|]; [|lia]. rewrite Z.sub_diag in H2. discriminate.
Qed.
Lemma positions_sorted inv : forall i, StronglySorted Z.lt (flag_positions i inv).
Proof.
  induction inv as [|f inv IH]; intros i; [constructor|]. destruct f; cbn; [|apply IH]. constructor; [apply IH|].
  rewrite Forall_forall. intros p Hp. apply positions_spec in Hp as [Hp _]. lia.
Qed.

Section View.
Variables (s : str) (inv : list bool).
Hypothesis Hlen : length s = length inv.
Notation v := (string_view s inv).

(** Exactly the kept characters, in order; positions and characters correspond. *)
Theorem C31_view :
  v_str v = kept s inv /\ length (v_idx v) = length (v_str v) /\ StronglySorted Z.lt (v_idx v) /\
  (forall p, In p (v_idx v) <-> 0 <= p < slen s /\ nth_error inv (Z.to_nat p) = Some true) /\
  (forall k p, nth_error (v_idx v) k = Some p -> exists c, nth_error (v_str v) k = Some c /\ py_at s p = Ok c).
Proof.
  rewrite view_kept, view_idx. split; [reflexivity|]. split; [symmetry; now apply kept_length|].
  split; [apply positions_sorted|]. split.
  - intros p. rewrite positions_spec, Z.sub_0_r. split; intros [H1 H2]; (split; [|exact H2]); [|lia].
    split; [exact H1|]. assert (Z.to_nat p < length inv)%nat by (apply nth_error_Some; congruence). unfold slen. lia.
  - assert (G : forall s0 inv0 i, length s0 = length inv0 -> forall k p, nth_error (flag_positions i inv0) k = Some p ->
       exists c, nth_error (kept s0 inv0) k = Some c /\ nth_error s0 (Z.to_nat (p - i)) = Some c).
    { clear. intros s0. induction s0 as [|c s0 IH]; intros [|f inv0] i H k p Hk; try discriminate; [destruct k; discriminate|].
      injection H as H. destruct f; cbn [flag_positions kept] in *.
      - destruct k as [|k]; cbn [nth_error] in *.
        + injection Hk as <-. exists c. rewrite Z.sub_diag. split; reflexivity.
        + destruct (IH inv0 (i + 1) H k p Hk) as (d & D1 & D2). exists d. split; [exact D1|].
          assert (Hp : i + 1 <= p) by (apply nth_error_In in Hk; now apply positions_spec in Hk).
          replace (Z.to_nat (p - i)) with (S (Z.to_nat (p - (i + 1)))) by lia. exact D2.
      - destruct (IH inv0 (i + 1) H k p Hk) as (d & D1 & D2). exists d. split; [exact D1|].
        assert (Hp : i + 1 <= p) by (apply nth_error_In in Hk; now apply positions_spec in Hk).
        replace (Z.to_nat (p - i)) with (S (Z.to_nat (p - (i + 1)))) by lia. exact D2. }
    intros k p Hk. destruct (G s inv 0 Hlen k p Hk) as (c & C1 & C2). exists c. split; [exact C1|].
    assert (0 <= p) by (apply nth_error_In in Hk; now apply positions_spec in Hk).
    rewrite py_at_pos by assumption. rewrite Z.sub_0_r in C2. now rewrite C2.
Qed.

(** A range of the view is the kept text of the range from its first to its last
    character in the original. *)
Theorem C31_range i n p q : (0 < n)%nat ->
  nth_error (v_idx v) i = Some p -> nth_error (v_idx v) (i + n - 1) = Some q ->
  0 <= p <= q /\ q < slen s /\
  firstn n (skipn i (v_str v)) = kept (py_slice s p (q + 1)) (py_slice inv p (q + 1)).
Proof.
  intros Hn Hp Hq. rewrite view_kept, view_idx in *.
  assert (G : forall inv0 s0 b i n p q, length s0 = length inv0 -> (0 < n)%nat ->
    nth_error (flag_positions b inv0) i = Some p -> nth_error (flag_positions b inv0) (i + n - 1) = Some q ->
    b <= p <= q /\ q - b < slen s0 /\
    firstn n (skipn i (kept s0 inv0)) =
    kept (firstn (Z.to_nat (q + 1 - p)) (skipn (Z.to_nat (p - b)) s0)) (firstn (Z.to_nat (q + 1 - p)) (skipn (Z.to_nat (p - b)) inv0))).
  { clear. intros inv0. induction inv0 as [|f inv0 IH]; intros [|c s0] b i n p q Hl Hn Hp Hq; try discriminate; [destruct i; discriminate|].
    injection Hl as Hl. destruct f; cbn [flag_positions kept] in *.
    - destruct i as [|i]; cbn [nth_error] in Hp.
      + injection Hp as <-. cbn [skipn]. rewrite Z.sub_diag. cbn [Z.to_nat skipn].
        destruct n as [|n]; [lia|]. cbn [firstn]. replace (0 + S n - 1)%nat with n in Hq by lia.
        destruct n as [|n]; cbn [nth_error] in Hq.
        * injection Hq as <-. replace (Z.to_nat (b + 1 - b)) with 1%nat by lia. unfold slen. cbn. repeat split; lia.
        * destruct (nth_error (flag_positions (b + 1) inv0) 0) as [p'|] eqn:Ep'.
          2: { apply nth_error_None in Ep'. assert (n < length (flag_positions (b + 1) inv0))%nat by (apply nth_error_Some; congruence). lia. }
          destruct (IH s0 (b + 1) 0%nat (S n) p' q Hl ltac:(lia) Ep') as (I1 & I2 & I3).
          { replace (0 + S n - 1)%nat with n by lia. exact Hq. }
          split; [lia|]. split; [unfold slen in *; cbn [length]; lia|].
          replace (Z.to_nat (q + 1 - b)) with (S (Z.to_nat (q + 1 - (b + 1)))) by lia. cbn [firstn kept]. f_equal.
          cbn [skipn] in I3. etransitivity; [exact I3|].
          (* the characters before the next kept one do not matter *)
          clear -Ep' I1 Hl. set (d := Z.to_nat (p' - (b + 1))).
          assert (Hd : forall k inv0 s0 bb, length s0 = length inv0 -> nth_error (flag_positions bb inv0) 0 = Some p' ->
            kept (firstn k (skipn (Z.to_nat (p' - bb)) s0)) (firstn k (skipn (Z.to_nat (p' - bb)) inv0)) =
            kept (firstn (Z.to_nat (p' - bb) + k) s0) (firstn (Z.to_nat (p' - bb) + k) inv0)).
          { clear. intros k inv1. induction inv1 as [|f inv1 IH]; intros [|c s1] bb Hl Hp; try discriminate. injection Hl as Hl.
            destruct f; cbn [flag_positions] in Hp.
            - injection Hp as <-. rewrite Z.sub_diag. reflexivity.
            - assert (bb + 1 <= p') by (apply nth_error_In in Hp; now apply positions_spec in Hp).
              replace (Z.to_nat (p' - bb)) with (S (Z.to_nat (p' - (bb + 1)))) by lia. cbn [skipn Nat.add firstn kept]. now apply IH. }
          rewrite (Hd _ inv0 s0 (b + 1) Hl Ep'). f_equal; f_equal; lia.
      + destruct n as [|n]; [lia|]. replace (S i + S n - 1)%nat with (S (i + S n - 1)) in Hq by lia. cbn [nth_error] in Hq.
        destruct (IH s0 (b + 1) i (S n) p q Hl ltac:(lia) Hp Hq) as (I1 & I2 & I3).
        split; [lia|]. split; [unfold slen in *; cbn [length]; lia|].
        replace (Z.to_nat (p - b)) with (S (Z.to_nat (p - (b + 1)))) by lia. exact I3.
    - destruct (IH s0 (b + 1) i n p q Hl Hn Hp Hq) as (I1 & I2 & I3).
      split; [lia|]. split; [unfold slen in *; cbn [length]; lia|].
      replace (Z.to_nat (p - b)) with (S (Z.to_nat (p - (b + 1)))) by lia. exact I3. }
  destruct (G inv s 0 i n p q Hlen Hn Hp Hq) as (G1 & G2 & G3). rewrite Z.sub_0_r in *.
  split; [exact G1|]. split; [exact G2|]. rewrite G3, !py_slice_pos by lia.
  replace (Z.to_nat (q + 1) - Z.to_nat p)%nat with (Z.to_nat (q + 1 - p)) by lia. reflexivity.
Qed.
End View.

(** views without junk *)
Lemma mapM_flags (f : junk_fn) (s : str) : (forall i, 0 <= i < slen s -> exists j, f s i = Ok j) ->
  exists inv, mapM (fun ic => do j <- f s (fst ic) ;; Ok (negb j)) (enumerate s) = Ok inv /\ length inv = length s /\
    forall i, (i < length s)%nat -> exists j, f s (Z.of_nat i) = Ok j /\ nth_error inv i = Some (negb j).
Proof.
  intros H. unfold enumerate.
  assert (G : forall (t : str) k, (forall i, (k <= i < k + length t)%nat -> exists j, f s (Z.of_nat i) = Ok j) ->
     exists inv, mapM (fun ic : Z * N => do j <- f s (fst ic) ;; Ok (negb j)) (combine (map Z.of_nat (seq k (length t))) t) = Ok inv /\
     length inv = length t /\ forall i, (i < length t)%nat -> exists j, f s (Z.of_nat (k + i)) = Ok j /\ nth_error inv i = Some (negb j)).
  { induction t as [|c t IH]; intros k Hk.
    - exists []. repeat split. cbn. intros; lia.
    - cbn [length seq map combine mapM fst]. destruct (Hk k) as [j Ej]; [cbn; lia|]. rewrite Ej. cbn [bind].
      destruct (IH (S k)) as (inv & E & L & P). { intros i Hi. apply Hk. cbn. lia. }
      rewrite E. cbn [bind]. exists (negb j :: inv). split; [reflexivity|]. split; [cbn; lia|].
      intros [|i] Hi.
      + exists j. rewrite Nat.add_0_r. split; [exact Ej|reflexivity].
      + destruct (P i) as (j' & P1 & P2); [cbn in Hi; lia|]. exists j'. replace (k + S i)%nat with (S k + i)%nat by lia. split; assumption. }
  destruct (G s 0%nat) as (inv & E & L & P).
  - intros i Hi. apply H. unfold slen. lia.
  - exists inv. repeat split; try assumption.
Qed.
(** The view without junk keeps exactly the characters that are not junk. *)
Theorem C31_no_junk (f : junk_fn) (s : str) : junk_total f -> exists vw, no_junk_view s (Some f) = Ok vw /\
  vw = string_view s (v_in vw) /\ length (v_in vw) = length s /\
  forall p, In p (v_idx vw) <-> 0 <= p < slen s /\ f s p = Ok false.
Proof.
  intros Hf. destruct (mapM_flags f s) as (inv & E & L & P); [intros i Hi; now apply Hf|].
  exists (string_view s inv). cbn [no_junk_view]. rewrite E. cbn [bind v_in]. split; [reflexivity|]. split; [reflexivity|].
  split; [exact L|]. intros p. destruct (C31_view s inv (eq_sym L)) as (_ & _ & _ & H & _). rewrite H.
  split; intros [H1 H2]; (split; [exact H1|]); unfold slen in H1;
    (destruct (P (Z.to_nat p)) as (j & P1 & P2); [lia|]); rewrite Z2Nat.id in P1 by lia.
  - rewrite H2 in P2. injection P2 as P2. destruct j; [discriminate|exact P1].
  - rewrite P2. rewrite P1 in H2. now injection H2 as ->.
Qed.
Lemma space_total : junk_total space_is_junk.
Proof.
  intros s i H. unfold slen in H. unfold space_is_junk. rewrite <- (Z2Nat.id i) by lia. rewrite (py_at_nat 0%N) by lia. cbn. eauto.
Qed.
Lemma default2_total alpha : junk_total (default_is_junk alpha).
Proof.
  intros s i H. unfold slen in H. unfold default_is_junk. rewrite <- (Z2Nat.id i) by lia. rewrite (py_at_nat 0%N) by lia. cbn [bind].
  destruct (_ || _)%bool; [eauto|]. destruct (skip_spaces _); eauto.
Qed.

(** ** What the default rule takes for junk: stars, spaces, a comma after a dot and a dot
    after a letter; spaces in between do not count *)
Definition last_visible (s : str) (i : nat) (p : N) : Prop :=
  exists k, (k < i)%nat /\ nth_error s k = Some p /\ p <> 32%N /\ forall m, (k < m < i)%nat -> nth_error s m = Some 32%N.
Definition default_junk (alpha : N -> bool) (s : str) (i : nat) (c : N) : Prop :=
  c = 42%N \/ c = 32%N \/ (c = 44%N /\ last_visible s i 46%N) \/ (c = 46%N /\ exists p, alpha p = true /\ last_visible s i p).
Lemma skip_spaces_spec l :
  match skip_spaces (rev l) with
  | [] => forall p, ~ last_visible l (length l) p
  | p :: _ => last_visible l (length l) p /\ forall q, last_visible l (length l) q -> q = p
  end.
Proof.
  assert (U : forall s i p q, last_visible s i p -> last_visible s i q -> q = p).
  { intros s i p q (k & K1 & K2 & K3 & K4) (k' & K1' & K2' & K3' & K4').
    destruct (Nat.lt_trichotomy k k') as [L|[L|L]].
    - rewrite K4 in K2' by lia. congruence.
    - subst. congruence.
    - rewrite K4' in K2 by lia. congruence. }
  assert (S : match skip_spaces (rev l) with [] => forall p, ~ last_visible l (length l) p | p :: _ => last_visible l (length l) p end).
  { induction l as [|c l IH] using rev_ind.
    - cbn. intros p (k & K & _). cbn in K. lia.
    - rewrite rev_app_distr. cbn [rev app skip_spaces]. rewrite app_length. cbn [length]. destruct (N.eqb_spec c c_space) as [->|Hc].
      + assert (T : forall p, last_visible l (length l) p <-> last_visible (l ++ [c_space]) (length l + 1) p).
        { intros p. split; intros (k & K1 & K2 & K3 & K4).
          - exists k. split; [lia|]. rewrite nth_error_app1 by lia. repeat split; auto. intros m Hm.
            destruct (Nat.eq_dec m (length l)) as [->|Q]; [rewrite nth_error_app2, Nat.sub_diag by lia; reflexivity|].
            rewrite nth_error_app1 by lia. apply K4. lia.
          - assert (k <> length l). { intros ->. rewrite nth_error_app2, Nat.sub_diag in K2 by lia. cbn in K2. unfold c_space in K2. congruence. }
            exists k. split; [lia|]. rewrite nth_error_app1 in K2 by lia. repeat split; auto. intros m Hm. specialize (K4 m ltac:(lia)).
            now rewrite nth_error_app1 in K4 by lia. }
        destruct (skip_spaces (rev l)) as [|p r].
        * intros p Hp. apply T in Hp. exact (IH p Hp).
        * now apply T.
      + exists (length l). split; [lia|]. rewrite nth_error_app2, Nat.sub_diag by lia. repeat split; auto. intros m Hm. lia. }
  destruct (skip_spaces (rev l)) as [|p r]; [exact S|]. split; [exact S|]. intros q Hq. exact (U _ _ _ _ S Hq).
Qed.
Theorem C31_default alpha s i c : nth_error s i = Some c ->
  exists b, default_is_junk alpha s (Z.of_nat i) = Ok b /\ (b = true <-> default_junk alpha s i c).
Proof.
  intros H. assert (Hi : (i < length s)%nat) by (apply nth_error_Some; congruence).
  unfold default_is_junk. rewrite (py_at_nat 0%N) by exact Hi. rewrite (nth_error_nth _ _ 0%N H). cbn [bind].
  rewrite Z.max_r by lia. rewrite py_slice_pos by lia. cbn [Z.to_nat skipn]. rewrite Nat.sub_0_r, Nat2Z.id.
  pose proof (skip_spaces_spec (firstn i s)) as S. rewrite firstn_length, Nat.min_l in S by lia.
  assert (T : forall p, last_visible (firstn i s) i p <-> last_visible s i p).
  { assert (F : forall k, (k < i)%nat -> nth_error (firstn i s) k = nth_error s k).
    { intros k Hk. rewrite <- (firstn_skipn i s) at 2. rewrite nth_error_app1; [reflexivity|rewrite firstn_length; lia]. }
    intros p. split; intros (k & K1 & K2 & K3 & K4); exists k; (split; [exact K1|]); (split; [now rewrite ?F in * by lia|]);
      (split; [exact K3|]); intros m Hm; specialize (K4 m Hm); now rewrite ?F in * by lia. }
  unfold default_junk.
  destruct (N.eqb_spec c c_star) as [->|N1]; [exists true; split; [reflexivity|]; split; [now left|reflexivity]|].
  destruct (N.eqb_spec c c_space) as [->|N2]; [exists true; split; [reflexivity|]; split; [right; now left|reflexivity]|]. cbn [orb].
  unfold c_star, c_space, c_comma, c_dot in *.
  destruct (skip_spaces (rev (firstn i s))) as [|p r].
  - exists false. split; [reflexivity|]. split; [discriminate|].
    intros [Q|[Q|[[_ Q]|[_ (p & _ & Q)]]]]; try contradiction; apply T in Q; destruct (S _ Q).
  - destruct S as [S1 S2]. eexists. split; [reflexivity|]. rewrite orb_true_iff, !andb_true_iff, !N.eqb_eq. split.
    + intros [[-> ->]|[-> A]]; [right; right; left; split; [reflexivity|now apply T]|right; right; right; split; [reflexivity|]].
      exists p. split; [exact A|now apply T].
    + intros [Q|[Q|[[-> Q]|[-> (q & A & Q)]]]]; try contradiction; apply T in Q; apply S2 in Q; subst; auto.
Qed.

Example C31_ex : no_junk_view (u "a b  cd") (Some space_is_junk) =
  Ok (mkV (u "a b  cd") [true; false; true; false; false; true; true] (u "abcd") [0; 2; 5; 6]).
Proof. reflexivity. Qed.
Example C31_ex_range : nth_error (v_idx (string_view (u "a b  cd") [true; false; true; false; false; true; true])) 1 = Some 2 /\
  nth_error (v_idx (string_view (u "a b  cd") [true; false; true; false; false; true; true])) (1 + 2 - 1) = Some 5.
Proof. split; reflexivity. Qed.
Example C31_ex_junk : no_junk_view (u "J. , Smith.") (Some (default_is_junk ascii_alpha)) =
  Ok (string_view (u "J. , Smith.") [true; false; false; false; false; true; true; true; true; true; false]).
Proof. reflexivity. Qed.

Print Assumptions C30_split.
Print Assumptions C30_blocks.
Print Assumptions C31_default.
Print Assumptions C31_view.
Print Assumptions C31_range.
Print Assumptions C31_no_junk.
