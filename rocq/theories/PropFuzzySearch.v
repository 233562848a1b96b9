(** C32-C34: strided search, all matches, match positions *)
From Coq Require Import Sorted Qround Lqa.
From Verif Require Import Base ModelFuzzyMatch PropFuzzyMatch ModelWordMatch PropWordMatch ModelFuzzySearch.
Open Scope Z_scope.

(** contract of the sequence matcher: blocks of equal characters, in order, within bounds *)
Definition lsm_ok (lsm : str -> str -> list block) : Prop := forall h n,
  valid h n (lsm h n) /\ Forall (pairs h n) (lsm h n).

(* ---------------------------------------------------------------- *)
(** ** C32 *)

(** *** window length and stride *)
Lemma round_low q k : (inject_Z k <= q)%Q -> k <= round_half_even q.
Proof.
  intros H. unfold round_half_even. pose proof (Qfloor_resp_le _ _ H) as F. rewrite Qfloor_Z in F.
  destruct (Qltb _ _); [lia|]. destruct (Qltb _ _); [lia|]. destruct (Z.even _); lia.
Qed.
(** The stride is positive for every configuration. *)
Theorem C32_stride_positive hl nl th : 0 < hl -> 0 <= nl -> 0 < snd (max_length_and_stride hl nl th).
Proof.
  intros H1 H2. unfold max_length_and_stride. destruct (hl <=? 1000) eqn:E; [exact H1|]. cbn [snd]. lia.
Qed.
(** For thresholds up to 1 consecutive windows overlap by at least the length of the needle. *)
Theorem C32_overlap hl nl th : 1000 < hl -> 0 <= nl -> (th <= 1)%Q ->
  let (ml, st) := max_length_and_stride hl nl th in 0 < st /\ nl <= ml - st.
Proof.
  intros H1 H2 H3. unfold max_length_and_stride. destruct (hl <=? 1000) eqn:E; [apply Z.leb_le in E; lia|]. cbn zeta.
  set (d := round_half_even _).
  assert (Hd : 0 <= d).
  { apply round_low. change (inject_Z 0) with 0%Q. apply Qmult_le_0_compat.
    - change 0%Q with (inject_Z 0). rewrite <- Zle_Qle. lia.
    - lra. }
  lia.
Qed.

Section Loop.
Variables (lsm : str -> str -> list block) (h n : str) (max_length stride : Z) (th : Q) (isjunk : junk_fn).
Variable sub : option (str -> Z -> res chunks).
Hypothesis Hstride : 0 < stride.
Notation step := (stride_step lsm h n max_length stride th isjunk sub).
Notation loop := (fun fuel => stride_loop lsm fuel h n max_length stride th isjunk sub).

Lemma step_some s c : step s = Ok (Some c) -> c <> [].
Proof.
  unfold stride_step. destruct (lsm _ _) as [|x l]; [discriminate|]. destruct (_ || _)%bool; [discriminate|].
  destruct (blocks_ratio _ _ _ _); [cbn [bind]|discriminate]. destruct (Qltb _ _).
  - destruct sub as [rec|]; [|discriminate]. destruct (first_chunk _ _ _ _ _ _) as [fc|]; [cbn [bind]|discriminate].
    destruct fc as [|y fc].
    + destruct (last_chunk _ _ _ _ _) as [lc|]; [cbn [bind]|discriminate]. destruct (needle_start lc); [|discriminate].
      destruct (rec _ _) as [rest|]; [cbn [bind]|discriminate]. destruct rest as [|r rest]; [discriminate|]. intros H. injection H as <-. discriminate.
    + destruct (rec _ _) as [rest|]; [cbn [bind]|discriminate]. destruct rest as [|r rest]; [discriminate|]. intros H. injection H as <-. discriminate.
  - intros H. injection H as <-. discriminate.
Qed.
Lemma loop_terminates fuel : forall start, (0 < fuel)%nat -> slen h - start < Z.of_nat fuel ->
  (forall s, start <= s < slen h -> step s <> Err OutOfFuel) -> loop fuel start <> Err OutOfFuel.
Proof.
  induction fuel as [|fuel IH]; intros start Hf0 Hf Hs; [lia|]; cbn [stride_loop]; destruct (start <? slen h) eqn:E; try discriminate.
  - apply Z.ltb_lt in E. pose proof (Hs start ltac:(lia)) as H. destruct (step start) as [[c|]|e]; cbn [bind]; [discriminate| |congruence].
    pose proof (IH (start + stride) ltac:(lia) ltac:(lia)) as H'. cbv beta in H'.
    destruct (stride_loop _ _ _ _ _ _ _ _ _ _) as [r|e]; cbn [bind]; [discriminate|]. intros Q. injection Q as ->. apply H'; [|reflexivity].
    intros s Hs'. apply Hs. lia.
Qed.
Lemma loop_total fuel : forall start, (0 < fuel)%nat -> slen h - start < Z.of_nat fuel ->
  (forall s, start <= s < slen h -> exists r, step s = Ok r) -> exists r, loop fuel start = Ok r.
Proof.
  induction fuel as [|fuel IH]; intros start Hf0 Hf Hs; [lia|]; cbn [stride_loop]; destruct (start <? slen h) eqn:E; eauto.
  - apply Z.ltb_lt in E. destruct (Hs start ltac:(lia)) as [[c|] ->]; cbn [bind]; eauto.
    destruct (IH (start + stride) ltac:(lia) ltac:(lia)) as [r Hr]; [intros s Hs'; apply Hs; lia|]. cbv beta in Hr. rewrite Hr. cbn [bind]. eauto.
Qed.
(** the visited positions *)
Definition stepping (start : Z) (m : nat) : list Z := map (fun k => start + Z.of_nat k * stride) (seq 0 m).
Lemma stepping_S start m : stepping start (S m) = start :: stepping (start + stride) m.
Proof.
  unfold stepping. cbn [seq map]. f_equal; [lia|]. rewrite <- seq_shift, map_map. apply map_ext. intros; lia.
Qed.
Lemma loop_trace fuel : forall start c tr, loop fuel start = Ok (c, tr) ->
  exists m, tr = stepping start m /\ Forall (fun s => start <= s < slen h) tr /\
    (c = [] -> slen h <= start + Z.of_nat m * stride) /\
    (c <> [] -> exists s, In s tr /\ step s = Ok (Some c)).
Proof.
  induction fuel as [|fuel IH]; intros start c tr; cbn [stride_loop]; [discriminate|]. destruct (start <? slen h) eqn:E.
  - apply Z.ltb_lt in E. destruct (step start) as [[c'|]|e] eqn:Es; cbn [bind]; [| |discriminate].
    + intros H. injection H as <- <-. exists 1%nat. rewrite stepping_S. cbn. split; [reflexivity|]. split; [constructor; [lia|constructor]|].
      split; [intros ->; now apply step_some in Es|]. intros _. exists start. split; [now left|exact Es].
    + destruct (stride_loop _ _ _ _ _ _ _ _ _ _) as [[c' tr']|e] eqn:El; cbn [bind]; [|discriminate].
      intros H. injection H as <- <-. cbn [fst snd]. destruct (IH _ _ _ El) as (m & -> & I1 & I2 & I3). exists (S m).
      rewrite stepping_S. split; [reflexivity|]. split; [constructor; [lia|eapply Forall_impl; [|exact I1]; cbv beta; intros; lia]|].
      split; [intros Hc; specialize (I2 Hc); lia|]. intros Hc. destruct (I3 Hc) as (s & S1 & S2). exists s. split; [now right|exact S2].
  - apply Z.ltb_ge in E. intros H. injection H as <- <-. exists 0%nat. repeat split; [constructor|intros; lia|congruence].
Qed.
(* every range not longer than the overlap lies in a window *)
Lemma windows_cover start (tr : list Z) m p len : tr = stepping start m -> slen h <= start + Z.of_nat m * stride ->
  start <= p -> 0 <= len -> len <= max_length - stride -> p < slen h ->
  exists s, In s tr /\ s <= p < s + stride /\ p + len <= s + max_length.
Proof.
  intros -> Hm Hp Hl Hlen Hph.
  set (k := (p - start) / stride).
  assert (Hk : 0 <= k) by (apply Z.div_pos; lia).
  pose proof (Z.mul_div_le (p - start) stride Hstride). pose proof (Z.mul_succ_div_gt (p - start) stride Hstride). fold k in H, H0.
  exists (start + k * stride). split; [|nia].
  unfold stepping. apply in_map_iff. exists (Z.to_nat k). split; [rewrite Z2Nat.id by lia; reflexivity|].
  apply in_seq. split; [lia|]. assert (k < Z.of_nat m) by nia. lia.
Qed.
End Loop.

Lemma strided_loop lsm mc fuel h n ml st th jf start : exists sub,
  strided lsm mc fuel h n ml st th jf start = stride_loop lsm fuel h n ml st th jf sub start /\
  ((mc <= 1)%nat -> sub = None) /\
  (forall rec, sub = Some rec -> exists mc', mc = S mc' /\
     forall n' s', rec n' s' = do r <- strided lsm mc' fuel h n' ml st th jf s' ;; Ok (fst r)).
Proof.
  destruct mc as [|[|mc]]; (eexists; split; [reflexivity|]); (split; [intros; solve [reflexivity|lia]|]); intros rec H; try discriminate.
  injection H as <-. eauto.
Qed.
(** The visited chunks: each [stride] further, from the start, inside the text.  If
    nothing is found they cover the text: every range of at most the overlap lies in one. *)
Theorem C32_visits lsm mc fuel h n ml st th jf start c tr : 0 < st ->
  strided lsm mc fuel h n ml st th jf start = Ok (c, tr) ->
  (exists m, tr = stepping st start m) /\ Forall (fun s => start <= s < slen h) tr /\
  (c = [] -> forall p len, start <= p < slen h -> 0 <= len <= ml - st ->
     exists s, In s tr /\ s <= p < s + st /\ p + len <= s + ml).
Proof.
  intros Hst H. destruct (strided_loop lsm mc fuel h n ml st th jf start) as (sub & E & _ & _). rewrite E in H.
  destruct (loop_trace lsm h n ml st th jf sub Hst _ _ _ _ H) as (m & -> & H1 & H2 & _).
  split; [eauto|]. split; [exact H1|]. intros Hc p len Hp Hl. eapply windows_cover; eauto; lia.
Qed.
Lemma stepping_increasing st start m : 0 < st -> StronglySorted Z.lt (stepping st start m).
Proof.
  intros H. revert start. induction m as [|m IH]; intros start; [constructor|]. rewrite stepping_S. constructor; [apply IH|].
  rewrite Forall_forall. intros x Hx. unfold stepping in Hx. apply in_map_iff in Hx as (k & <- & _). lia.
Qed.

(** *** the search ends for every matcher *)
Definition no_oof {A} (r : res A) : Prop := r <> Err OutOfFuel.
Definition junk_no_oof (f : junk_fn) : Prop := forall s i, no_oof (f s i).
Lemma bind_no_oof {A B} (r : res A) (f : A -> res B) : no_oof r -> (forall x, no_oof (f x)) -> no_oof (bind r f).
Proof. unfold no_oof. destruct r; cbn; [auto|congruence]. Qed.
Lemma ok_no_oof {A} (x : A) : no_oof (Ok x).
Proof. discriminate. Qed.
Lemma foldM_no_oof {A B} (f : B -> A -> res B) l : (forall b a, no_oof (f b a)) -> forall b, no_oof (foldM f b l).
Proof. intros H. induction l as [|x l IH]; intros b; cbn; [discriminate|]. now apply bind_no_oof. Qed.
Lemma mapM_no_oof {A B} (f : A -> res B) l : (forall a, no_oof (f a)) -> no_oof (mapM f l).
Proof. intros H. induction l as [|x l IH]; cbn; [discriminate|]. repeat (apply bind_no_oof; [auto|intros]). discriminate. Qed.
Lemma py_at_no_oof {A} (s : list A) i : no_oof (py_at s i).
Proof. unfold py_at, no_oof. cbn zeta. match goal with |- context [if ?c <? 0 then Err _ else _] => destruct (c <? 0) end; [discriminate|]. destruct (nth_error _ _); discriminate. Qed.
Lemma count_no_oof f s l r : junk_no_oof f -> no_oof (count_non_matching_junk f s l r).
Proof.
  intros H. apply foldM_no_oof. intros b x. apply bind_no_oof; [|intros; apply ok_no_oof].
  apply foldM_no_oof. intros c i. apply bind_no_oof; [apply H|intros; apply ok_no_oof].
Qed.
Lemma gap_no_oof m : junk_no_oof (f_junk m) -> no_oof (b_gap_ratio_fixed m).
Proof.
  intros H. unfold b_gap_ratio_fixed. apply bind_no_oof; [now apply count_no_oof|]. intros.
  apply bind_no_oof; [now apply count_no_oof|]. intros. apply ok_no_oof.
Qed.
(** Without chunks: for every matcher and junk function, whatever they return. *)
Theorem C32_terminates lsm h n ml st th jf mc fuel start : 0 < st -> (mc <= 1)%nat -> junk_no_oof jf ->
  (0 < fuel)%nat -> slen h - start < Z.of_nat fuel -> strided lsm mc fuel h n ml st th jf start <> Err OutOfFuel.
Proof.
  intros Hst Hmc Hj Hf0 Hf. destruct (strided_loop lsm mc fuel h n ml st th jf start) as (sub & -> & E & _). rewrite E by exact Hmc.
  apply loop_terminates; [exact Hst|exact Hf0|exact Hf|]. intros s _. unfold stride_step.
  destruct (lsm _ _) as [|x l]; [discriminate|]. destruct (_ || _)%bool; [discriminate|].
  pose proof (gap_no_oof (mkF h n (x :: l) jf) Hj) as G. unfold blocks_ratio, no_oof in *.
  destruct (b_gap_ratio_fixed _); cbn [bind]; [|congruence]. destruct (Qltb _ _); discriminate.
Qed.

(** *** under the contract the search succeeds, with any number of chunks *)
Lemma slice_len {A} (s : list A) i j : slen (py_slice s i j) <= slen s.
Proof. unfold py_slice, slen. cbn zeta. rewrite firstn_length, skipn_length. lia. Qed.
Lemma in_bounds_wider a a' b x : slen a <= slen a' -> in_bounds a b x -> in_bounds a' b x.
Proof. unfold in_bounds. lia. Qed.
Lemma valid_wider a a' b l : slen a <= slen a' -> valid a b l -> valid a' b l.
Proof. intros H [H1 H2]. split; [|exact H2]. eapply Forall_impl; [|exact H1]. intros x. now apply in_bounds_wider. Qed.
Lemma sorted_app_l {A} (R : A -> A -> Prop) l1 l2 : StronglySorted R (l1 ++ l2) -> StronglySorted R l1.
Proof.
  induction l1 as [|x l1 IH]; intros H; [constructor|]. inversion H; subst. constructor; [now apply IH|].
  now apply Forall_app in H3.
Qed.
Lemma valid_firstn a b k l : valid a b l -> valid a b (firstn k l).
Proof.
  intros [H1 H2]. rewrite <- (firstn_skipn k l) in H1, H2. apply Forall_app in H1 as [H1 _]. apply sorted_app_l in H2. now split.
Qed.
Lemma valid_cons a b x l : valid a b (x :: l) -> in_bounds a b x /\ valid a b l /\ Forall (follows x) l.
Proof. intros [H1 H2]. inversion H1; inversion H2; subst. split; [assumption|]. split; [split; assumption|assumption]. Qed.
Lemma slice_prefix_len {A} (s : list A) e : 0 <= e <= slen s -> slen (py_slice s 0 e) = e.
Proof. intros H. rewrite py_slice_pos by lia. unfold slen in *. cbn [Z.to_nat skipn]. rewrite firstn_length. lia. Qed.
Lemma from_len {A} (s : list A) e : 0 <= e <= slen s -> slen (py_from s e) = slen s - e.
Proof. intros H. unfold py_from. rewrite py_slice_pos by lia. unfold slen in *. rewrite firstn_length, skipn_length. lia. Qed.
Lemma ratio_ok h n l jf : valid h n l -> junk_total jf -> exists r, blocks_ratio h n l jf = Ok r.
Proof.
  intros Hv Hj. destruct (C28_ratios (mkF h n l jf) Hv Hj) as (r1 & r2 & r3 & r4 & r5 & _ & _ & _ & _ & H & _).
  exists r5. exact H.
Qed.
(* where a chunk of blocks ends and starts in the needle *)
Lemma needle_end_spec h n l : valid h n l -> 0 <= needle_end l <= slen n /\ (0 < needle_end l -> valid h (py_slice n 0 (needle_end l)) l).
Proof.
  intros Hv. destruct l as [|x l]; [cbn; unfold slen; lia|]. unfold needle_end.
  destruct Hv as [H1 H2]. destruct (last_block_max l x H2) as [L1 L2]. { eapply Forall_impl; [|exact H1]. unfold in_bounds. tauto. }
  pose proof H1 as H1'. rewrite Forall_forall in H1. pose proof (H1 _ L1) as Bl. unfold in_bounds in Bl.
  set (z := last_block (x :: l)) in *. destruct (b_n z =? 0) eqn:E; [unfold slen; lia|]. split; [lia|]. intros He.
  split; [|exact H2]. rewrite Forall_forall. intros y Hy. specialize (H1 y Hy). specialize (L2 y Hy). unfold in_bounds in *.
  rewrite slice_prefix_len by lia. lia.
Qed.
Lemma needle_start_spec h n l s : valid h n l -> needle_start l = Some s ->
  0 <= s <= slen n /\ valid h (py_from n s) (offset_blocks l 0 (0 - s)).
Proof.
  intros Hv. destruct l as [|x l]; [discriminate|]. unfold needle_start. destruct (b_n x =? 0) eqn:E; [discriminate|].
  intros H. injection H as <-. destruct Hv as [H1 H2].
  destruct (last_block_max l x H2) as [_ L2]. { eapply Forall_impl; [|exact H1]. unfold in_bounds. tauto. }
  rewrite Forall_forall in H1. pose proof (H1 x ltac:(now left)) as Bx. unfold in_bounds in Bx. split; [lia|].
  unfold offset_blocks. destruct ((0 =? 0) && (0 - b_b x =? 0))%bool eqn:Eo.
  - apply andb_true_iff in Eo as [_ Eo]. apply Z.eqb_eq in Eo. split; [|exact H2]. rewrite Forall_forall. intros y Hy. specialize (H1 y Hy).
    unfold in_bounds in *. rewrite from_len by lia. lia.
  - split.
    + rewrite Forall_forall. intros y Hy. apply in_map_iff in Hy as (z & <- & Hz). specialize (H1 z Hz). specialize (L2 z Hz).
      unfold in_bounds in *. rewrite from_len by lia. unfold b_a, b_b, b_n in *. cbn [fst snd]. lia.
    + clear -H2. set (k := 0 - b_b x). clearbody k. induction H2 as [|y l0 H IH Hf]; cbn [map]; constructor; [exact IH|].
      rewrite Forall_forall in *. intros z Hz. apply in_map_iff in Hz as (w & <- & Hw). specialize (Hf w Hw).
      unfold follows, b_a, b_b, b_n in *. cbn [fst snd]. lia.
Qed.
Lemma first_chunk_spec h n l th jf count : valid h n l -> junk_total jf ->
  exists c, first_chunk h n l th jf count = Ok c /\ valid h n c /\ (exists k, c = firstn k l) /\ (c <> [] -> 0 < needle_end c).
Proof.
  intros Hv Hj. induction count as [|count (c & IH)]; cbn [first_chunk].
  - exists []. repeat split; try constructor; [exists 0%nat; reflexivity|congruence].
  - destruct (needle_end (firstn (S count) l) =? 0) eqn:E.
    + exists []. repeat split; try constructor; [exists 0%nat; reflexivity|congruence].
    + apply Z.eqb_neq in E. pose proof (valid_firstn h n (S count) l Hv) as Hf. destruct (needle_end_spec h n _ Hf) as [N1 N2].
      destruct (ratio_ok h _ _ jf (N2 ltac:(lia)) Hj) as [r ->]. cbn [bind]. destruct (Qle_bool th r); [|exists c; exact IH].
      exists (firstn (S count) l). split; [reflexivity|]. split; [exact Hf|]. split; [eauto|]. lia.
Qed.
Lemma last_chunk_spec h n l th jf : valid h n l -> junk_total jf ->
  exists c, last_chunk h n l th jf = Ok c /\ valid h n c /\ exists k, c = skipn k l.
Proof.
  intros Hv Hj. induction l as [|x l IH]; cbn [last_chunk].
  - exists []. repeat split; try constructor. exists 0%nat. reflexivity.
  - destruct (needle_start (x :: l)) as [s|] eqn:E.
    + destruct (needle_start_spec h n _ s Hv E) as [N1 N2]. destruct (ratio_ok h _ _ jf N2 Hj) as [r ->]. cbn [bind].
      destruct (Qle_bool th r).
      * exists (x :: l). split; [reflexivity|]. split; [exact Hv|]. exists 0%nat. reflexivity.
      * apply valid_cons in Hv as (_ & Hv & _). destruct (IH Hv) as (c & -> & C1 & k & C2). exists c. split; [reflexivity|]. split; [exact C1|].
        exists (S k). exact C2.
    + exists []. split; [reflexivity|]. split; [split; constructor|]. exists (length (x :: l)). now rewrite skipn_all.
Qed.
Lemma valid_offset h n l e : 0 <= e <= slen n -> valid h (py_from n e) l -> valid h n (offset_blocks l 0 e).
Proof.
  intros He [H1 H2]. unfold offset_blocks. destruct ((0 =? 0) && (e =? 0))%bool eqn:E.
  - split; [|exact H2]. apply andb_true_iff in E as [_ E]. apply Z.eqb_eq in E. eapply Forall_impl; [|exact H1].
    intros x. unfold in_bounds. rewrite from_len by lia. lia.
  - split.
    + rewrite Forall_forall in *. intros y Hy. apply in_map_iff in Hy as (z & <- & Hz). specialize (H1 z Hz).
      unfold in_bounds, b_a, b_b, b_n in *. rewrite from_len in H1 by lia. cbn [fst snd]. lia.
    + clear -H2. induction H2 as [|y l0 H IH Hf]; cbn [map]; constructor; [exact IH|].
      rewrite Forall_forall in *. intros z Hz. apply in_map_iff in Hz as (w & <- & Hw). specialize (Hf w Hw).
      unfold follows, b_a, b_b, b_n in *. cbn [fst snd]. lia.
Qed.
Lemma valid_prefix h n l s : 0 <= s <= slen n -> valid h (py_slice n 0 s) l -> valid h n l.
Proof.
  intros Hs [H1 H2]. split; [|exact H2]. eapply Forall_impl; [|exact H1]. intros x. unfold in_bounds. rewrite slice_prefix_len by lia. lia.
Qed.
Lemma window_valid h n start ml l : 0 <= start -> 0 <= ml -> valid (py_slice h start (start + ml)) n l -> valid h n l.
Proof. intros _ _. apply valid_wider, slice_len. Qed.
(* shifted by the start of the window *)
Lemma window_shift h n start ml l : 0 <= start -> start < slen h -> 0 <= ml -> valid (py_slice h start (start + ml)) n l ->
  valid h n (map (fun x => (b_a x + start, b_b x, b_n x)) l) /\ Forall (fun x => start <= b_a x) (map (fun x => (b_a x + start, b_b x, b_n x)) l).
Proof.
  intros Hs Hsh Hml [H1 H2].
  assert (Hl : slen (py_slice h start (start + ml)) + start <= slen h).
  { rewrite py_slice_pos by lia. unfold slen in *. rewrite firstn_length, skipn_length. lia. }
  split; [split|].
  - rewrite Forall_forall in *. intros y Hy. apply in_map_iff in Hy as (z & <- & Hz). specialize (H1 z Hz).
    unfold in_bounds, b_a, b_b, b_n in *. cbn [fst snd]. lia.
  - clear -H2. induction H2 as [|y l0 H IH Hf]; cbn [map]; constructor; [exact IH|].
    rewrite Forall_forall in *. intros z Hz. apply in_map_iff in Hz as (w & <- & Hw). specialize (Hf w Hw).
    unfold follows, b_a, b_b, b_n in *. cbn [fst snd]. lia.
  - rewrite Forall_forall in *. intros y Hy. apply in_map_iff in Hy as (z & <- & Hz). specialize (H1 z Hz).
    unfold in_bounds, b_a in *. cbn [fst snd]. lia.
Qed.
Lemma pairs_shift h n start ml x : 0 <= start -> 0 <= ml -> 0 <= b_a x ->
  pairs (py_slice h start (start + ml)) n x -> pairs h n (b_a x + start, b_b x, b_n x).
Proof.
  intros Hs Hml Ha Hp k Hk. unfold b_n, b_a, b_b in Hk |- *. cbn [fst snd] in *. destruct (Hp k Hk) as (c & C1 & C2). exists c. split; [|exact C2].
  fold (b_a x) in *. rewrite py_at_pos in C1 |- * by lia. rewrite py_slice_pos in C1 by lia.
  destruct (nth_error (firstn _ _) _) as [d|] eqn:E; [|discriminate]. injection C1 as ->.
  assert (E' : nth_error (skipn (Z.to_nat start) h) (Z.to_nat (b_a x + k)) = Some c).
  { rewrite <- E. rewrite <- (firstn_skipn (Z.to_nat (start + ml) - Z.to_nat start) (skipn (Z.to_nat start) h)) at 1.
    apply nth_error_app1. apply nth_error_Some. congruence. }
  rewrite nth_skipn in E'. replace (Z.to_nat (b_a x + start + k)) with (Z.to_nat start + Z.to_nat (b_a x + k))%nat by lia. now rewrite E'.
Qed.

Section Strided.
Variables (lsm : str -> str -> list block) (h : str) (ml st : Z) (th : Q) (isjunk : junk_fn).
Hypothesis Hlsm : lsm_ok lsm.
Hypothesis Hj : junk_total isjunk.
Hypothesis Hst : 0 < st.
Hypothesis Hml : 0 <= ml.

Lemma step_total n sub start : 0 <= start < slen h ->
  (forall rec, sub = Some rec -> forall n' s', 0 <= s' -> exists c : chunks, rec n' s' = Ok c /\ Forall (valid h n') c) ->
  exists r, stride_step lsm h n ml st th isjunk sub start = Ok r /\ forall c, r = Some c -> Forall (valid h n) c.
Proof.
  intros Hs Hsub. unfold stride_step. set (w := py_slice h start (start + ml)).
  destruct (Hlsm w n) as [Hv Hp]. destruct (lsm w n) as [|x l]; [exists None; split; [reflexivity|discriminate]|].
  destruct (_ || _)%bool; [exists None; split; [reflexivity|discriminate]|].
  assert (Hvh : valid h n (x :: l)) by (apply (window_valid h n start ml); [lia|exact Hml|exact Hv]).
  destruct (ratio_ok h n _ isjunk Hvh Hj) as [r ->]. cbn [bind]. destruct (Qltb r th).
  - destruct sub as [rec|]; [|exists None; split; [reflexivity|discriminate]].
    destruct (first_chunk_spec h n (x :: l) th isjunk (length (x :: l) - 1) Hvh Hj) as (fc & -> & F1 & _ & F3). cbn [bind].
    destruct fc as [|y fc].
    + destruct (last_chunk_spec h n (x :: l) th isjunk Hvh Hj) as (lc & -> & L1 & _). cbn [bind].
      destruct (needle_start lc) as [s|] eqn:Es; [|exists None; split; [reflexivity|discriminate]].
      destruct (needle_start_spec h n lc s L1 Es) as [S1 _].
      destruct (Hsub rec eq_refl (py_slice n 0 s) 0 ltac:(lia)) as (rest & -> & R1). cbn [bind].
      destruct rest as [|r0 rest]; [exists None; split; [reflexivity|discriminate]|].
      eexists. split; [reflexivity|]. intros c Hc. injection Hc as <-. cbn [app].
      apply (Forall_app _ (r0 :: rest)). split; [|constructor; [exact L1|constructor]].
      eapply Forall_impl; [|exact R1]. intros z. now apply valid_prefix.
    + specialize (F3 ltac:(discriminate)). destruct (needle_end_spec h n _ F1) as [N1 _]. set (e := needle_end (y :: fc)) in *.
      destruct (Hsub rec eq_refl (py_from n e) (start + e) ltac:(lia)) as (rest & -> & R1). cbn [bind].
      destruct rest as [|r0 rest]; [exists None; split; [reflexivity|discriminate]|].
      eexists. split; [reflexivity|]. intros c Hc. injection Hc as <-. constructor; [exact F1|].
      rewrite Forall_forall in *. intros z Hz. apply (in_map_iff (fun l => offset_blocks l 0 e) (r0 :: rest)) in Hz as (z' & <- & Hz'). apply valid_offset; [lia|]. now apply R1.
  - eexists. split; [reflexivity|]. intros c Hc. injection Hc as <-. constructor; [|constructor].
    destruct (start =? 0); [exact Hvh|]. apply (window_shift h n start ml (x :: l)); [lia|lia|exact Hml|exact Hv].
Qed.
(** The search succeeds; the blocks of each chunk are in order and inside both texts. *)
Theorem C32_total mc : forall fuel n start, 0 <= start -> slen h < Z.of_nat fuel ->
  exists c tr, strided lsm mc fuel h n ml st th isjunk start = Ok (c, tr) /\ Forall (valid h n) c.
Proof.
  induction mc as [|mc IH]; intros fuel n start Hs Hf.
  - destruct (strided_loop lsm 0 fuel h n ml st th isjunk start) as (sub & E0 & Es & _). rewrite E0, (Es ltac:(lia)). clear E0 Es sub.
    destruct (loop_total lsm h n ml st th isjunk None Hst fuel start ltac:(unfold slen in *; lia) ltac:(lia)) as [[c tr] E].
    { intros s H. destruct (step_total n None s ltac:(lia)) as (r & E & _); [discriminate|eauto]. }
    exists c, tr. split; [exact E|]. destruct c as [|c0 c]; [constructor|].
    destruct (loop_trace _ _ _ _ _ _ _ _ Hst _ _ _ _ E) as (m & -> & T1 & _ & T3). destruct (T3 ltac:(discriminate)) as (s & S1 & S2).
    rewrite Forall_forall in T1. specialize (T1 s S1). destruct (step_total n None s ltac:(lia)) as (r & E' & R); [discriminate|].
    apply R. pose proof (eq_trans (eq_sym E') S2) as Q. now injection Q.
  - destruct (strided_loop lsm (S mc) fuel h n ml st th isjunk start) as (sub & E0 & _ & Es). rewrite E0. clear E0.
    assert (Hsub : forall rec, sub = Some rec -> forall n' s', 0 <= s' -> exists c : chunks, rec n' s' = Ok c /\ Forall (valid h n') c).
    { intros rec Hr n' s' Hs'. destruct (Es rec Hr) as (mc' & Em & Er). injection Em as <-. rewrite Er.
      destruct (IH fuel n' s' Hs' Hf) as (c & tr & E & V). rewrite E. cbn [bind fst]. eauto. }
    destruct (loop_total lsm h n ml st th isjunk sub Hst fuel start ltac:(unfold slen in *; lia) ltac:(lia)) as [[c tr] E].
    { intros s H. destruct (step_total n sub s ltac:(lia) Hsub) as (r & E & _). eauto. }
    exists c, tr. split; [exact E|]. destruct c as [|c0 c]; [constructor|].
    destruct (loop_trace _ _ _ _ _ _ _ _ Hst _ _ _ _ E) as (m & -> & T1 & _ & T3). destruct (T3 ltac:(discriminate)) as (s & S1 & S2).
    rewrite Forall_forall in T1. specialize (T1 s S1). destruct (step_total n sub s ltac:(lia) Hsub) as (r & E' & R).
    apply R. pose proof (eq_trans (eq_sym E') S2) as Q. now injection Q.
Qed.
(** Without chunks the single result lies behind the start and pairs equal characters. *)
Lemma strided_one mc fuel n start c tr : (mc <= 1)%nat -> 0 <= start ->
  strided lsm mc fuel h n ml st th isjunk start = Ok (c, tr) -> c <> [] ->
  exists l, c = [l] /\ valid h n l /\ Forall (pairs h n) l /\ Forall (fun x => start <= b_a x) l /\
    exists x l', l = x :: l' /\ b_n x <> 0.
Proof.
  intros Hmc Hs E Hc. destruct (strided_loop lsm mc fuel h n ml st th isjunk start) as (sub & E' & Es & _). rewrite E', (Es Hmc) in E.
  destruct (loop_trace _ _ _ _ _ _ _ _ Hst _ _ _ _ E) as (m & -> & T1 & _ & T3). destruct (T3 Hc) as (s & S1 & S2).
  rewrite Forall_forall in T1. specialize (T1 s S1). unfold stride_step in S2. destruct (Hlsm (py_slice h s (s + ml)) n) as [Hv Hp].
  destruct (lsm _ _) as [|x l]; [discriminate|]. destruct (_ || _)%bool eqn:Eb; [discriminate|].
  apply orb_false_iff in Eb as [_ Eb]. apply Z.eqb_neq in Eb.
  destruct (blocks_ratio _ _ _ _); [cbn [bind] in S2|discriminate]. destruct (Qltb _ _); [discriminate|]. injection S2 as <-.
  assert (Hw : (if s =? 0 then x :: l else map (fun x => (b_a x + s, b_b x, b_n x)) (x :: l)) = map (fun x => (b_a x + s, b_b x, b_n x)) (x :: l)).
  { destruct (s =? 0) eqn:E0; [|reflexivity]. apply Z.eqb_eq in E0. subst s. symmetry. transitivity (map (fun x : block => x) (x :: l)); [|apply map_id].
    apply map_ext. intros [[p q] k]. unfold b_a, b_b, b_n. cbn [fst snd]. now rewrite Z.add_0_r. }
  exists (map (fun x => (b_a x + s, b_b x, b_n x)) (x :: l)). split; [exact (f_equal (fun l => [l]) Hw)|]. clear Hw.
  destruct (window_shift h n s ml (x :: l) ltac:(lia) ltac:(lia) Hml Hv) as [W1 W2].
  split; [exact W1|]. split; [|split].
  - rewrite Forall_forall in *. intros y Hy. apply in_map_iff in Hy as (z & <- & Hz). apply (pairs_shift h n s ml); [lia|exact Hml| |now apply Hp].
    destruct Hv as [Hv _]. rewrite Forall_forall in Hv. apply Hv in Hz. unfold in_bounds in Hz. lia.
  - eapply Forall_impl; [|exact W2]. cbv beta. intros; lia.
  - do 2 eexists. split; [reflexivity|]. exact Eb.
Qed.
End Strided.

(* ---------------------------------------------------------------- *)
(** ** positions in the original texts *)

(** a text without spaces, tabs and line feeds *)
Definition squeeze (s : str) : str := filter (fun c => negb (N.eqb c 32 || N.eqb c 9 || N.eqb c 10)) s.
(** a reported block: a range of the haystack behind [from] which, apart from
    spaces, is the text of a range of the needle *)
Definition hit (h n : str) (from : Z) (x : block) : Prop :=
  from <= b_a x /\ 0 < b_n x /\ b_a x + b_n x <= slen h /\ 0 <= b_b x /\
  exists e, b_b x < e <= slen n /\ squeeze (py_slice h (b_a x) (b_a x + b_n x)) = squeeze (py_slice n (b_b x) e).
(** in order: not overlapping in the haystack, increasing in the needle *)
Definition later (x y : block) : Prop := b_a x + b_n x <= b_a y /\ b_b x < b_b y.

Lemma kept_squeeze s : forall inv, length s = length inv ->
  (forall i c, nth_error s i = Some c -> nth_error inv i = Some (negb (is_space3 c))) -> kept s inv = squeeze s.
Proof.
  induction s as [|c s IH]; intros [|f inv] Hl H; try discriminate; [reflexivity|].
  assert (E : f = negb (is_space3 c)) by (specialize (H 0%nat c eq_refl); cbn in H; congruence).
  unfold squeeze. cbn [filter]. change ((N.eqb c 32 || N.eqb c 9 || N.eqb c 10)%bool) with (is_space3 c). rewrite <- E.
  injection Hl as Hl. assert (R : kept s inv = squeeze s) by (apply IH; [exact Hl|]; intros i d Hd; exact (H (S i) d Hd)).
  destruct f; cbn [kept]; [f_equal|]; exact R.
Qed.
Lemma nth_slice {A} (s : list A) p q i : 0 <= p -> 0 <= q -> (i < Z.to_nat q - Z.to_nat p)%nat ->
  nth_error (py_slice s p q) i = nth_error s (Z.to_nat p + i).
Proof.
  intros Hp Hq Hi. rewrite py_slice_pos by assumption. rewrite <- nth_skipn.
  rewrite <- (firstn_skipn (Z.to_nat q - Z.to_nat p) (skipn (Z.to_nat p) s)) at 2.
  destruct (Nat.lt_ge_cases i (length (firstn (Z.to_nat q - Z.to_nat p) (skipn (Z.to_nat p) s)))) as [H|H].
  - symmetry. now apply nth_error_app1.
  - rewrite firstn_length in H. assert (length (skipn (Z.to_nat p) s) <= i)%nat by lia.
    rewrite firstn_skipn. transitivity (@None A); [|symmetry]; apply nth_error_None; [rewrite firstn_length|]; lia.
Qed.
Definition space_view (s : str) : view := string_view s (map (fun c => negb (is_space3 c)) s).
Lemma space_view_ok s : no_junk_view s (Some space_is_junk) = Ok (space_view s).
Proof.
  unfold no_junk_view, space_view. destruct (mapM_flags space_is_junk s) as (inv & E & L & P).
  { intros i Hi. now apply space_total. }
  rewrite E. cbn [bind]. do 2 f_equal. apply (nth_ext _ _ true true); [rewrite map_length; lia|].
  intros i Hi. rewrite L in Hi. destruct (P i Hi) as (j & J1 & J2). unfold space_is_junk in J1.
  rewrite (py_at_nat 0%N) in J1 by exact Hi. cbn in J1. injection J1 as <-.
  rewrite (nth_error_nth _ _ _ J2). symmetry. apply nth_error_nth. rewrite nth_error_map, (nth_error_nth' s 0%N Hi). reflexivity.
Qed.
Lemma space_range s i n p q : (0 < n)%nat ->
  nth_error (v_idx (space_view s)) i = Some p -> nth_error (v_idx (space_view s)) (i + n - 1) = Some q ->
  0 <= p <= q /\ q < slen s /\ firstn n (skipn i (v_str (space_view s))) = squeeze (py_slice s p (q + 1)).
Proof.
  intros Hn Hp Hq. destruct (C31_range s (map (fun c => negb (is_space3 c)) s)) with (i := i) (n := n) (p := p) (q := q) as (R1 & R2 & R3);
    [now rewrite map_length|exact Hn|exact Hp|exact Hq|]. split; [exact R1|]. split; [exact R2|]. etransitivity; [exact R3|].
  apply kept_squeeze.
  - rewrite !py_slice_pos by lia. now rewrite !firstn_length, !skipn_length, map_length.
  - intros k c Hk.
    assert (Hk' : (k < Z.to_nat (q + 1) - Z.to_nat p)%nat).
    { assert (k < length (py_slice s p (q + 1)))%nat by (apply nth_error_Some; congruence).
      rewrite py_slice_pos, firstn_length in H by lia. lia. }
    rewrite (nth_slice s) in Hk by lia.
    assert (E : nth_error (py_slice (map (fun c => negb (is_space3 c)) s) p (q + 1)) k = Some (negb (is_space3 c))).
    { rewrite nth_slice by lia. now rewrite nth_error_map, Hk. }
    exact E.
Qed.
Lemma space_view_len s : length (v_idx (space_view s)) = length (v_str (space_view s)) /\ StronglySorted Z.lt (v_idx (space_view s)) /\
  slen (v_str (space_view s)) <= slen s.
Proof.
  destruct (C31_view s (map (fun c => negb (is_space3 c)) s)) as (V1 & V2 & V3 & _); [now rewrite map_length|].
  split; [exact V2|]. split; [exact V3|]. unfold space_view. rewrite V1. unfold slen.
  enough (G : forall inv, (length (kept s inv) <= length s)%nat) by (specialize (G (map (fun c => negb (is_space3 c)) s)); lia).
  clear. induction s as [|c s IH]; intros [|[] inv]; cbn; try lia; specialize (IH inv); lia.
Qed.
Lemma sorted_nth l : StronglySorted Z.lt l -> forall i j p q, (i < j)%nat -> nth_error l i = Some p -> nth_error l j = Some q -> p < q.
Proof.
  induction 1 as [|x l H IH Hf]; intros i j p q Hij Hp Hq; [destruct i; discriminate|].
  destruct j as [|j]; [lia|]. cbn in Hq. destruct i as [|i].
  - injection Hp as ->. rewrite Forall_forall in Hf. apply Hf. now apply nth_error_In in Hq.
  - apply (IH i j); [lia|exact Hp|exact Hq].
Qed.
Lemma idx_at s k : 0 <= k < slen (v_str (space_view s)) ->
  exists p, py_at (v_idx (space_view s)) k = Ok p /\ nth_error (v_idx (space_view s)) (Z.to_nat k) = Some p.
Proof.
  intros Hk. destruct (space_view_len s) as (L & _ & _). rewrite py_at_pos by lia.
  destruct (nth_error (v_idx (space_view s)) (Z.to_nat k)) as [p|] eqn:E; [eauto|]. apply nth_error_None in E. unfold slen in Hk. lia.
Qed.

(* one block of the views in the originals *)
Lemma unview_block h n x : in_bounds (v_str (space_view h)) (v_str (space_view n)) x -> b_n x <> 0 ->
  exists a0 b0 a1 b1,
    nth_error (v_idx (space_view h)) (Z.to_nat (b_a x)) = Some a0 /\ nth_error (v_idx (space_view n)) (Z.to_nat (b_b x)) = Some b0 /\
    nth_error (v_idx (space_view h)) (Z.to_nat (b_a x + b_n x - 1)) = Some a1 /\ nth_error (v_idx (space_view n)) (Z.to_nat (b_b x + b_n x - 1)) = Some b1 /\
    py_at (v_idx (space_view h)) (b_a x) = Ok a0 /\ py_at (v_idx (space_view n)) (b_b x) = Ok b0 /\
    py_at (v_idx (space_view h)) (b_a x + b_n x - 1) = Ok a1.
Proof.
  intros Hb Hn. unfold in_bounds in Hb.
  destruct (idx_at h (b_a x)) as (a0 & A1 & A2); [lia|]. destruct (idx_at n (b_b x)) as (b0 & B1 & B2); [lia|].
  destruct (idx_at h (b_a x + b_n x - 1)) as (a1 & A3 & A4); [lia|]. destruct (idx_at n (b_b x + b_n x - 1)) as (b1 & B3 & B4); [lia|].
  exists a0, b0, a1, b1. repeat split; assumption.
Qed.
Lemma pairs_slices h n x : in_bounds h n x -> pairs h n x ->
  firstn (Z.to_nat (b_n x)) (skipn (Z.to_nat (b_a x)) h) = firstn (Z.to_nat (b_n x)) (skipn (Z.to_nat (b_b x)) n).
Proof.
  intros Hb Hp. unfold in_bounds, slen in Hb. apply (nth_ext _ _ 0%N 0%N).
  - rewrite !firstn_length, !skipn_length. lia.
  - intros k Hk. rewrite firstn_length, skipn_length in Hk.
    destruct (Hp (Z.of_nat k)) as (w & W1 & W2); [lia|]. rewrite !py_at_pos in W1, W2 by lia.
    assert (G : forall (l : str) i, nth_error l (i + k) = Some w -> nth k (firstn (Z.to_nat (b_n x)) (skipn i l)) 0%N = w).
    { intros l i H. apply nth_error_nth. rewrite <- nth_skipn in H. rewrite <- H.
      rewrite <- (firstn_skipn (Z.to_nat (b_n x)) (skipn i l)) at 2. symmetry. apply nth_error_app1.
      assert (k < length (skipn i l))%nat by (apply nth_error_Some; congruence). rewrite firstn_length. lia. }
    rewrite (G h), (G n); [reflexivity| |].
    + replace (Z.to_nat (b_b x) + k)%nat with (Z.to_nat (b_b x + Z.of_nat k)) by lia. destruct (nth_error n _); [congruence|discriminate].
    + replace (Z.to_nat (b_a x) + k)%nat with (Z.to_nat (b_a x + Z.of_nat k)) by lia. destruct (nth_error h _); [congruence|discriminate].
Qed.
Lemma slice_as_pairs (s : str) p k : 0 <= p -> 0 <= k -> py_slice s p (p + k) = firstn (Z.to_nat k) (skipn (Z.to_nat p) s).
Proof. intros Hp Hk. rewrite py_slice_pos by lia. f_equal. lia. Qed.

Lemma unview_spec h n l : valid (v_str (space_view h)) (v_str (space_view n)) l ->
  exists l', unview (space_view h) (space_view n) l = Ok l' /\
    (Forall (pairs (v_str (space_view h)) (v_str (space_view n))) l -> Forall (hit h n 0) l' /\ StronglySorted later l') /\
    (Exists (fun x => b_n x <> 0) l -> l' <> []).
Proof.
  intros Hv. unfold unview.
  assert (Hv' : valid (v_str (space_view h)) (v_str (space_view n)) (filter (fun x => negb (b_n x =? 0)) l)) by now apply valid_filter.
  assert (Hne : Forall (fun x => b_n x <> 0) (filter (fun x => negb (b_n x =? 0)) l)).
  { rewrite Forall_forall. intros x Hx. apply filter_In in Hx as [_ Hx]. now apply negb_true_iff, Z.eqb_neq in Hx. }
  assert (Hex : Exists (fun x => b_n x <> 0) l -> filter (fun x => negb (b_n x =? 0)) l <> []).
  { intros He. apply Exists_exists in He as (x & X1 & X2). intros En. assert (Hi : In x (filter (fun x => negb (b_n x =? 0)) l)).
    { apply filter_In. split; [exact X1|]. now apply negb_true_iff, Z.eqb_neq. }
    rewrite En in Hi. destruct Hi. }
  assert (Hpf : Forall (pairs (v_str (space_view h)) (v_str (space_view n))) l ->
                Forall (pairs (v_str (space_view h)) (v_str (space_view n))) (filter (fun x => negb (b_n x =? 0)) l)).
  { rewrite !Forall_forall. intros H x Hx. apply filter_In in Hx as [Hx _]. auto. }
  revert Hv' Hne Hex Hpf. generalize (filter (fun x => negb (b_n x =? 0)) l) as f. intros f Hv' Hne Hex Hpf.
  enough (G : exists l', mapM (fun x =>
      do a0 <- py_at (v_idx (space_view h)) (b_a x) ;;
      do b0 <- py_at (v_idx (space_view n)) (b_b x) ;;
      do a1 <- py_at (v_idx (space_view h)) (b_a x + b_n x - 1) ;;
      Ok (a0, b0, a1 - a0 + 1)) f = Ok l' /\
    (Forall (pairs (v_str (space_view h)) (v_str (space_view n))) f -> Forall (hit h n 0) l' /\ StronglySorted later l') /\
    length l' = length f /\
    (forall y, In y l' -> exists x, In x f /\ nth_error (v_idx (space_view h)) (Z.to_nat (b_a x)) = Some (b_a y) /\
        nth_error (v_idx (space_view n)) (Z.to_nat (b_b x)) = Some (b_b y))).
  { destruct G as (l' & G1 & G2 & G3 & _). exists l'. split; [exact G1|]. split; [intros H; apply G2; auto|].
    intros H. specialize (Hex H). intros ->. destruct f; [congruence|discriminate]. }
  clear Hv Hex Hpf l. destruct Hv' as [Hb Hs]. induction Hs as [|x f Hs IH Hf].
  - exists []. split; [reflexivity|]. split; [intros; split; constructor|]. split; [reflexivity|]. intros y [].
  - inversion Hb as [|? ? Bx Bf]; inversion Hne as [|? ? Nx Nf]; subst. destruct (IH Bf Nf) as (l' & L1 & L2 & L3 & L4). clear IH.
    destruct (unview_block h n x Bx Nx) as (a0 & b0 & a1 & b1 & P1 & P2 & P3 & P4 & Q1 & Q2 & Q3).
    exists ((a0, b0, a1 - a0 + 1) :: l'). cbn [mapM]. rewrite Q1, Q2, Q3. cbn [bind]. rewrite L1. cbn [bind].
    split; [reflexivity|]. split; [|split; [cbn; lia|]].
    + intros Hp. inversion Hp as [|? ? Px Pf]; subst. destruct (L2 Pf) as [M1 M2].
      unfold in_bounds in Bx.
      destruct (space_range h (Z.to_nat (b_a x)) (Z.to_nat (b_n x)) a0 a1) as (R1 & R2 & R3); [lia|exact P1| |].
      { replace (Z.to_nat (b_a x) + Z.to_nat (b_n x) - 1)%nat with (Z.to_nat (b_a x + b_n x - 1)) by lia. exact P3. }
      destruct (space_range n (Z.to_nat (b_b x)) (Z.to_nat (b_n x)) b0 b1) as (S1 & S2 & S3); [lia|exact P2| |].
      { replace (Z.to_nat (b_b x) + Z.to_nat (b_n x) - 1)%nat with (Z.to_nat (b_b x + b_n x - 1)) by lia. exact P4. }
      split; (constructor; [|]).
      * unfold hit, b_a, b_b, b_n. cbn [fst snd]. split; [lia|]. split; [lia|]. split; [lia|]. split; [lia|].
        exists (b1 + 1). split; [lia|]. replace (a0 + (a1 - a0 + 1)) with (a1 + 1) by lia. rewrite <- R3, <- S3. apply pairs_slices; [exact Bx|exact Px].
      * exact M1.
      * exact M2.
      * rewrite Forall_forall in *. intros y Hy. destruct (L4 y Hy) as (z & Z1 & Z2 & Z3). specialize (Hf z Z1). specialize (Bf z Z1). specialize (Nf z Z1).
        unfold follows in Hf. unfold in_bounds in Bf. destruct (space_view_len h) as (_ & Lh & _). destruct (space_view_len n) as (_ & Ln & _).
        unfold later, b_a at 1, b_n at 1, b_b at 1. cbn [fst snd].
        assert (a1 < b_a y) by (apply (sorted_nth _ Lh (Z.to_nat (b_a x + b_n x - 1)) (Z.to_nat (b_a z))); [lia|assumption|assumption]).
        assert (b0 < b_b y) by (apply (sorted_nth _ Ln (Z.to_nat (b_b x)) (Z.to_nat (b_b z))); [lia|assumption|assumption]).
        lia.
    + intros y [<-|Hy].
      * exists x. split; [now left|]. split; [exact P1|exact P2].
      * destruct (L4 y Hy) as (z & Z1 & Z2). exists z. split; [now right|exact Z2].
Qed.

Lemma offset_map l ao bo : offset_blocks l ao bo = map (fun x => (b_a x + ao, b_b x + bo, b_n x)) l.
Proof.
  unfold offset_blocks. destruct ((ao =? 0) && (bo =? 0))%bool eqn:E; [|reflexivity].
  apply andb_true_iff in E as [E1 E2]. apply Z.eqb_eq in E1, E2. subst. symmetry.
  transitivity (map (fun x : block => x) l); [|apply map_id]. apply map_ext. intros [[p q] k]. unfold b_a, b_b, b_n. cbn [fst snd].
  now rewrite !Z.add_0_r.
Qed.
Lemma from_slice {A} (s : list A) start p k : 0 <= start -> 0 <= p -> 0 <= k ->
  py_slice (py_from s start) p (p + k) = py_slice s (p + start) (p + start + k).
Proof.
  intros H1 H2 H3. unfold py_from. rewrite !py_slice_pos by (unfold slen; lia).
  rewrite firstn_all2 with (n := (Z.to_nat (slen s) - Z.to_nat start)%nat) by (rewrite skipn_length; unfold slen; lia).
  assert (E : skipn (Z.to_nat p) (skipn (Z.to_nat start) s) = skipn (Z.to_nat (p + start)) s).
  { replace (Z.to_nat (p + start)) with (Z.to_nat start + Z.to_nat p)%nat by lia. generalize (Z.to_nat start) as i. clear.
    intros i. revert s. induction i as [|i IH]; intros s; [reflexivity|]. destruct s as [|x s]; [now rewrite !skipn_nil|]. cbn. apply IH. }
  rewrite E. f_equal. lia.
Qed.
Lemma hit_shift h0 n start x : 0 <= start -> hit (py_from h0 start) n 0 x ->
  hit h0 n start (b_a x + start, b_b x + 0, b_n x).
Proof.
  intros Hs (H1 & H2 & H3 & H4 & e & H5 & H6). 
  change (hit h0 n start (b_a x + start, b_b x + 0, b_n x)) with
    (start <= b_a x + start /\ 0 < b_n x /\ b_a x + start + b_n x <= slen h0 /\ 0 <= b_b x + 0 /\
     exists e, b_b x + 0 < e <= slen n /\ squeeze (py_slice h0 (b_a x + start) (b_a x + start + b_n x)) = squeeze (py_slice n (b_b x + 0) e)).
  rewrite Z.add_0_r.
  assert (Hl : slen (py_from h0 start) <= Z.max 0 (slen h0 - start)).
  { unfold py_from. rewrite py_slice_pos by (unfold slen; lia). unfold slen. rewrite firstn_length, skipn_length. lia. }
  split; [lia|]. split; [exact H2|]. split; [lia|]. split; [exact H4|]. exists e. split; [exact H5|]. rewrite <- from_slice by lia. exact H6.
Qed.
Lemma later_shift start l : StronglySorted later l -> StronglySorted later (map (fun x => (b_a x + start, b_b x + 0, b_n x)) l).
Proof.
  induction 1 as [|y l H IH Hf]; cbn [map]; constructor; [exact IH|].
  rewrite Forall_forall in *. intros z Hz. apply in_map_iff in Hz as (w & <- & Hw). specialize (Hf w Hw).
  unfold later, b_a, b_b, b_n in *. cbn [fst snd]. lia.
Qed.

Section Public.
Variables (lsm : str -> str -> list block) (words : list str -> list str -> list block) (alpha : N -> bool).
Hypothesis Hlsm : lsm_ok lsm.
Hypothesis Hwords : words_ok words.

Lemma auto_empty mc fuel n th jf : (0 < fuel)%nat -> auto_strided lsm mc fuel [] n th jf = Ok ([], []).
Proof.
  intros Hf. unfold auto_strided. destruct (max_length_and_stride _ _ _) as [ml st].
  destruct (strided_loop lsm mc fuel [] n ml st th jf 0) as (sub & -> & _). destruct fuel; [lia|]. reflexivity.
Qed.
Lemma auto_facts hl nl th : 0 < hl -> 0 <= nl ->
  let (ml, st) := max_length_and_stride hl nl th in 0 < st /\ 0 <= ml.
Proof.
  intros H1 H2. unfold max_length_and_stride. destruct (hl <=? 1000) eqn:E; [lia|]. cbn zeta. lia.
Qed.
Lemma auto_total mc fuel h n th jf : junk_total jf -> slen h < Z.of_nat fuel ->
  exists c tr, auto_strided lsm mc fuel h n th jf = Ok (c, tr) /\ Forall (valid h n) c.
Proof.
  intros Hj Hf. destruct h as [|ch h].
  - exists [], []. rewrite auto_empty by (unfold slen in Hf; cbn in Hf; lia). split; [reflexivity|constructor].
  - unfold auto_strided. pose proof (auto_facts (slen (ch :: h)) (slen n) th ltac:(unfold slen; cbn [length]; lia) ltac:(unfold slen; lia)) as H.
    destruct (max_length_and_stride _ _ _) as [ml st]. destruct H as [H1 H2].
    apply (C32_total lsm (ch :: h) ml st th jf Hlsm Hj H1 H2 mc fuel n 0); [lia|exact Hf].
Qed.
Lemma auto_one mc fuel h n th jf c tr : junk_total jf -> (mc <= 1)%nat ->
  auto_strided lsm mc fuel h n th jf = Ok (c, tr) -> c <> [] ->
  exists l, c = [l] /\ Forall (pairs h n) l /\ Exists (fun x => b_n x <> 0) l.
Proof.
  intros Hj Hmc E Hc. destruct h as [|ch h].
  - destruct fuel as [|fuel].
    + unfold auto_strided in E. destruct (max_length_and_stride _ _ _) as [ml st].
      destruct (strided_loop lsm mc 0 [] n ml st th jf 0) as (sub & E' & _). rewrite E' in E. discriminate.
    + rewrite auto_empty in E by lia. congruence.
  - unfold auto_strided in E. pose proof (auto_facts (slen (ch :: h)) (slen n) th ltac:(unfold slen; cbn [length]; lia) ltac:(unfold slen; lia)) as H.
    destruct (max_length_and_stride _ _ _) as [ml st]. destruct H as [H1 H2].
    destruct (strided_one lsm (ch :: h) ml st th jf Hlsm H1 H2 mc fuel n 0 c tr Hmc ltac:(lia) E Hc) as (l & -> & _ & L2 & _ & x & l' & -> & Hx).
    exists (x :: l'). split; [reflexivity|]. split; [exact L2|]. now constructor.
Qed.

Lemma mapM_unview h n ls : Forall (valid (v_str (space_view h)) (v_str (space_view n))) ls ->
  exists l, mapM (unview (space_view h) (space_view n)) ls = Ok l.
Proof.
  induction 1 as [|x ls H Hf IH]; [exists []; reflexivity|]. cbn [mapM]. destruct (unview_spec h n x H) as (y & -> & _).
  cbn [bind]. destruct IH as [l ->]. cbn [bind]. eauto.
Qed.

Definition junk_or (isjunk : option junk_fn) : junk_fn := match isjunk with Some f => f | None => default_is_junk alpha end.
Lemma junk_or_total isjunk : (forall f, isjunk = Some f -> junk_total f) -> junk_total (junk_or isjunk).
Proof. intros H. destruct isjunk as [f|]; [now apply H|apply default2_total]. Qed.

Lemma from_if (h0 : str) start : (if start =? 0 then h0 else py_from h0 start) = py_from h0 start.
Proof.
  destruct (start =? 0) eqn:E; [|reflexivity]. apply Z.eqb_eq in E. subst. unfold py_from. rewrite py_slice_pos by (unfold slen; lia).
  cbn [Z.to_nat skipn]. rewrite firstn_all2; [reflexivity|]. unfold slen. lia.
Qed.
Lemma from_le {A} (h0 : list A) start : 0 <= start -> slen (py_from h0 start) <= Z.max 0 (slen h0 - start).
Proof. intros H. unfold py_from. rewrite py_slice_pos by (unfold slen; lia). unfold slen. rewrite firstn_length, skipn_length. lia. Qed.
(* a word block is a hit *)
Lemma word_hit h n x : in_bounds h n x -> pairs h n x -> 0 < b_n x -> hit h n 0 x.
Proof.
  intros Hb Hp Hn. pose proof (pairs_slices h n x Hb Hp) as E. unfold in_bounds in Hb. unfold hit.
  split; [lia|]. split; [lia|]. split; [lia|]. split; [lia|]. exists (b_b x + b_n x). split; [lia|].
  f_equal. rewrite !slice_as_pairs by lia. exact E.
Qed.
Lemma word_valid_shift h0 n start l : 0 <= start -> valid (py_from h0 start) n l -> Forall (fun x => 0 < b_n x) l ->
  valid h0 n (map (fun x => (b_a x + start, b_b x + 0, b_n x)) l).
Proof.
  intros Hs [H1 H2] Hp. pose proof (from_le h0 start Hs) as Hl. split.
  - rewrite Forall_forall in *. intros y Hy. apply in_map_iff in Hy as (z & <- & Hz). specialize (H1 z Hz). specialize (Hp z Hz).
    unfold in_bounds, b_a, b_b, b_n in *. cbn [fst snd]. lia.
  - clear -H2. induction H2 as [|y l0 H IH Hf]; cbn [map]; constructor; [exact IH|].
    rewrite Forall_forall in *. intros z Hz. apply in_map_iff in Hz as (w & <- & Hw). specialize (Hf w Hw).
    unfold follows, b_a, b_b, b_n in *. cbn [fst snd]. lia.
Qed.
Lemma zero_ratio m r : match_count m = 0 -> b_gap_ratio_fixed m = Ok r -> (r == 0)%Q.
Proof.
  intros H. unfold b_gap_ratio_fixed. destruct (a_non_matching_junk _ _); [cbn [bind]|discriminate].
  destruct (b_non_matching_junk _ _); [cbn [bind]|discriminate]. intros E. injection E as <-. unfold ratio_to. rewrite H.
  destruct (_ =? 0); [reflexivity|]. unfold Qeq, Qdiv, Qmult. cbn. reflexivity.
Qed.
Lemma Qltb_false a b : Qltb a b = false -> (b <= a)%Q.
Proof. unfold Qltb. intros H. apply negb_false_iff in H. now apply Qle_bool_iff. Qed.

(** The search succeeds for every number of chunks. *)
Theorem C32_search fuel h0 n th exact_ mc start isjunk : 0 <= start -> slen h0 < Z.of_nat fuel ->
  (forall f, isjunk = Some f -> junk_total f) ->
  exists r, fuzzy_search_chunks lsm words alpha fuel h0 n th exact_ mc start isjunk = Ok r.
Proof.
  intros Hs Hf Hj. apply junk_or_total in Hj. unfold fuzzy_search_chunks. cbn zeta. fold (junk_or isjunk). rewrite from_if.
  destruct (_ <? exact_).
  - destruct (C30_blocks words default_separators (py_from h0 start) n Hwords) as (l & -> & L1 & L2 & L3). cbn [bind].
    rewrite offset_map.
    pose proof (word_valid_shift h0 n start l Hs L1 L3) as V.
    destruct (C28_ratios (mkF h0 n _ (junk_or isjunk)) V Hj) as (_ & _ & _ & _ & r5 & _ & _ & _ & _ & -> & _). cbn [bind].
    destruct (Qltb r5 th); eauto.
  - rewrite !space_view_ok. cbn [bind]. destruct (space_view_len (py_from h0 start)) as (_ & _ & Hl). pose proof (from_le h0 start Hs) as Hl'.
    assert (0 <= slen h0) by (unfold slen; lia).
    destruct (auto_total mc fuel (v_str (space_view (py_from h0 start))) (v_str (space_view n)) th _ Hj ltac:(lia)) as (c & tr & -> & V).
    cbn [bind fst]. destruct c as [|c0 c]; [eauto|]. destruct (mapM_unview _ _ _ V) as [l ->]. cbn [bind]. eauto.
Qed.

(** what a search result says *)
Definition good (h0 n : str) (th : Q) (start : Z) (m : fmr) : Prop :=
  f_a m = h0 /\ f_b m = n /\ Forall (hit h0 n start) (f_blocks m) /\ StronglySorted later (f_blocks m) /\
  ((0 < th)%Q -> f_blocks m <> []).
(** One chunk: the reported blocks are ranges of the whole haystack, behind the
    start, whose text is that of the needle. *)
Theorem C34_positions fuel h0 n th exact_ mc start isjunk l : 0 <= start -> (mc <= 1)%nat -> slen h0 < Z.of_nat fuel ->
  (forall f, isjunk = Some f -> junk_total f) ->
  fuzzy_search_chunks lsm words alpha fuel h0 n th exact_ mc start isjunk = Ok (Some l) ->
  exists m, l = [m] /\ good h0 n th start m.
Proof.
  intros Hs Hmc Hf Hj. apply junk_or_total in Hj. unfold fuzzy_search_chunks. cbn zeta. fold (junk_or isjunk). rewrite from_if.
  destruct (_ <? exact_).
  - destruct (C30_blocks words default_separators (py_from h0 start) n Hwords) as (bl & -> & L1 & L2 & L3). cbn [bind].
    rewrite offset_map. set (m := mkF h0 n _ _). destruct (b_gap_ratio_fixed m) as [r|] eqn:Er; [cbn [bind]|discriminate].
    destruct (Qltb r th) eqn:Eq; [discriminate|]. intros H. injection H as <-. exists m. split; [reflexivity|].
    unfold good, m. cbn [f_a f_b f_blocks]. split; [reflexivity|]. split; [reflexivity|]. split; [|split].
    + destruct L1 as [L1 _]. rewrite Forall_forall in *. intros y Hy. apply in_map_iff in Hy as (z & <- & Hz). apply hit_shift; [exact Hs|].
      apply word_hit; auto.
    + apply later_shift. destruct L1 as [_ L1]. clear -L1 L3. induction L1 as [|x l H IH Hf]; constructor.
      * apply IH. now inversion L3.
      * inversion L3; subst. rewrite Forall_forall in *. intros y Hy. specialize (Hf y Hy). unfold follows, later in *. lia.
    + intros Hth He. assert (Hc : match_count m = 0) by (unfold match_count, m; cbn [f_blocks]; rewrite He; reflexivity).
      pose proof (zero_ratio m r Hc Er). apply Qltb_false in Eq. rewrite H in Eq. apply (Qlt_not_le _ _ Hth Eq).
  - rewrite !space_view_ok. cbn [bind]. destruct (space_view_len (py_from h0 start)) as (_ & _ & Hl). pose proof (from_le h0 start Hs) as Hl'.
    assert (0 <= slen h0) by (unfold slen; lia).
    destruct (auto_total mc fuel (v_str (space_view (py_from h0 start))) (v_str (space_view n)) th _ Hj ltac:(lia)) as (c & tr & E & V).
    rewrite E. cbn [bind fst]. destruct c as [|c0 c]; [discriminate|].
    destruct (auto_one mc fuel _ _ th _ _ _ Hj Hmc E ltac:(discriminate)) as (bl & Ec & P1 & P2). injection Ec as -> ->.
    cbn [mapM]. inversion V as [|? ? V1 _]; subst. destruct (unview_spec _ _ _ V1) as (ol & -> & O1 & O2). cbn [bind map].
    intros H'. injection H' as <-. eexists. split; [reflexivity|]. destruct (O1 P1) as [O3 O4]. rewrite offset_map.
    unfold good. cbn [f_a f_b f_blocks]. split; [reflexivity|]. split; [reflexivity|]. split; [|split].
    + rewrite Forall_forall in *. intros y Hy. apply in_map_iff in Hy as (z & <- & Hz). apply hit_shift; auto.
    + now apply later_shift.
    + intros _ He. apply (O2 P2). destruct ol; [reflexivity|discriminate].
Qed.
(** The reported range goes from the first to the last of the matched ranges. *)
Theorem C34_range h0 n th start m : 0 <= start <= slen h0 -> good h0 n th start m -> f_blocks m <> [] ->
  let r := a_index_range m in
  start <= fst r /\ fst r < snd r /\ snd r <= slen h0 /\
  Forall (fun x => fst r <= b_a x /\ b_a x + b_n x <= snd r) (f_blocks m) /\
  (exists x, In x (f_blocks m) /\ b_a x = fst r) /\ (exists y, In y (f_blocks m) /\ b_a y + b_n y = snd r).
Proof.
  intros Hs (E1 & E2 & Hh & Hsort & _) Hne. cbn zeta. unfold a_index_range.
  assert (En : non_empty m = f_blocks m).
  { unfold non_empty. clear -Hh. induction Hh as [|x l Hx H IH]; [reflexivity|]. cbn [filter].
    destruct Hx as (_ & Hx & _). destruct (b_n x =? 0) eqn:E; [apply Z.eqb_eq in E; lia|]. cbn [negb]. now rewrite IH. }
  rewrite En. destruct (f_blocks m) as [|x l]; [congruence|]. clear En Hne.
  assert (G : forall l x, Forall (hit h0 n start) (x :: l) -> StronglySorted later (x :: l) ->
     In (last_block (x :: l)) (x :: l) /\ forall y, In y (x :: l) -> b_a x <= b_a y /\ b_a y + b_n y <= b_a (last_block (x :: l)) + b_n (last_block (x :: l))).
  { clear. induction l as [|z l IH]; intros x Hh Hs.
    - cbn. split; [now left|]. intros y [<-|[]]. lia.
    - inversion Hh as [|? ? Hx Hh']; inversion Hs as [|? ? Hs' Hf]; subst. destruct (IH z Hh' Hs') as [I1 I2].
      change (last_block (x :: z :: l)) with (last_block (z :: l)). split; [now right|]. intros y [<-|Hy].
      + rewrite Forall_forall in Hf, Hh'. specialize (Hf _ I1). specialize (Hh' _ I1). unfold later, hit in *. lia.
      + specialize (I2 y Hy). inversion Hf as [|? ? Hz _]; subst. unfold later, hit in *. lia. }
  destruct (G l x Hh Hsort) as [G1 G2]. rewrite Forall_forall in Hh. pose proof (Hh x ltac:(now left)) as Bx. pose proof (Hh _ G1) as Bl.
  pose proof (G2 x ltac:(now left)) as Gx. set (z := last_block (x :: l)) in *. unfold hit in Bx, Bl. cbn [fst snd].
  split; [lia|]. split; [lia|]. split; [lia|]. split; [rewrite Forall_forall; intros y Hy; specialize (G2 y Hy); lia|].
  split; [exists x; split; [now left|reflexivity]|exists z; split; [exact G1|reflexivity]].
Qed.

(* ---------------------------------------------------------------- *)
(** ** C33 *)
(** The loop ends for every search function. *)
Theorem C33_terminates (search : Z -> res (option fmr)) hlen : (forall s, search s <> Err OutOfFuel) ->
  forall fuel start, (0 < fuel)%nat -> hlen - start < Z.of_nat fuel -> search_all fuel search hlen start <> Err OutOfFuel.
Proof.
  intros Hs. induction fuel as [|fuel IH]; intros start H0 Hf; [lia|]. cbn [search_all]. destruct (start <? hlen) eqn:E; [|discriminate].
  apply Z.ltb_lt in E. specialize (Hs start). destruct (search start) as [[m|]|e]; cbn [bind]; [|discriminate|congruence].
  destruct (snd (a_index_range m) <=? start) eqn:E2; [discriminate|]. apply Z.leb_gt in E2.
  specialize (IH (snd (a_index_range m)) ltac:(lia) ltac:(lia)). destruct (search_all _ _ _ _); cbn [bind]; [discriminate|congruence].
Qed.
(** Finding all matches: for positive thresholds the ranges are not empty, inside
    the haystack behind the start, and each starts where the previous one ended or later. *)
Theorem C33_ranges fuel h0 n th exact_ mc isjunk start : (0 < th)%Q -> 0 <= start -> (mc <= 1)%nat -> slen h0 < Z.of_nat fuel ->
  (forall f, isjunk = Some f -> junk_total f) ->
  exists l, iter_fuzzy_search_all lsm words alpha fuel h0 n th exact_ mc start isjunk = Ok l /\
    Forall (fun m => start <= fst (a_index_range m) /\ fst (a_index_range m) < snd (a_index_range m) /\ snd (a_index_range m) <= slen h0 /\
                     exists from, good h0 n th from m) l /\
    StronglySorted (fun m m' => snd (a_index_range m) <= fst (a_index_range m')) l.
Proof.
  intros Hth Hs Hmc Hf Hj. unfold iter_fuzzy_search_all.
  set (search := fun s => fuzzy_search lsm words alpha fuel h0 n th exact_ mc s isjunk).
  assert (Hone : forall s, 0 <= s -> exists r, search s = Ok r /\
     forall m, r = Some m -> good h0 n th s m).
  { intros s Hs0. unfold search, fuzzy_search. destruct (C32_search fuel h0 n th exact_ mc s isjunk Hs0 Hf Hj) as [r E]. rewrite E. cbn [bind].
    destruct r as [l|]; [|exists None; split; [reflexivity|discriminate]].
    destruct (C34_positions fuel h0 n th exact_ mc s isjunk l Hs0 Hmc Hf Hj E) as (m & -> & G). cbn [merge_results map concat bind].
    eexists. split; [reflexivity|]. intros m' H. injection H as <-. unfold good in *. cbn [f_a f_b f_blocks]. rewrite app_nil_r. exact G. }
  clearbody search.
  assert (Hf0 : (0 < fuel)%nat) by (unfold slen in Hf; lia). assert (Hf1 : slen h0 - start < Z.of_nat fuel) by lia. clear Hf.
  revert start Hs Hf0 Hf1. induction fuel as [|f IH]; intros start Hs Hf0 Hf1; [lia|]. cbn [search_all]. destruct (start <? slen h0) eqn:E.
  2: { exists []. split; [reflexivity|split; constructor]. }
  apply Z.ltb_lt in E. destruct (Hone start Hs) as (r & -> & Hr). cbn [bind]. destruct r as [m|].
  2: { exists []. split; [reflexivity|split; constructor]. }
  specialize (Hr m eq_refl). assert (Hne : f_blocks m <> []) by (destruct Hr as (_ & _ & _ & _ & Hr); now apply Hr).
  destruct (C34_range h0 n th start m ltac:(lia) Hr Hne) as (R1 & R2 & R3 & _). cbn zeta in *.
  destruct (snd (a_index_range m) <=? start) eqn:E2; [apply Z.leb_le in E2; lia|].
  destruct (IH (snd (a_index_range m)) ltac:(lia) ltac:(lia) ltac:(lia)) as (l & -> & L1 & L2). cbn [bind].
  exists (m :: l). split; [reflexivity|]. split; constructor.
  - split; [exact R1|]. split; [exact R2|]. split; [exact R3|]. eauto.
  - eapply Forall_impl; [|exact L1]. cbv beta. intros m' (A & B & C & D). split; [lia|]. auto.
  - exact L2.
  - eapply Forall_impl; [|exact L1]. cbv beta. intros m' (A & _). lia.
Qed.
End Public.

(* ---------------------------------------------------------------- *)
(** ** Examples *)

(** a matcher that meets the contract: the longest prefix of the needle at the first
    position with its first character *)
Fixpoint common_prefix (a b : str) : nat :=
  match a, b with x :: a', y :: b' => if N.eqb x y then S (common_prefix a' b') else O | _, _ => O end.
Fixpoint find_first (c : N) (s : str) : option nat :=
  match s with [] => None | x :: s' => if N.eqb x c then Some O else option_map S (find_first c s') end.
Definition prefix_lsm (h n : str) : list block :=
  match n with
  | [] => []
  | c :: _ =>
      match find_first c h with
      | None => []
      | Some i => [(Z.of_nat i, 0, Z.of_nat (common_prefix (skipn i h) n)); (slen h, slen n, 0)]
      end
  end.
Lemma common_prefix_spec a : forall b, (common_prefix a b <= length a)%nat /\ (common_prefix a b <= length b)%nat /\
  forall k, (k < common_prefix a b)%nat -> exists c, nth_error a k = Some c /\ nth_error b k = Some c.
Proof.
  induction a as [|x a IH]; intros [|y b]; cbn; try (repeat split; lia). destruct (N.eqb x y) eqn:E; [|repeat split; cbn; lia].
  apply N.eqb_eq in E. subst y. destruct (IH b) as (H1 & H2 & H3). split; [lia|]. split; [lia|].
  intros [|k] Hk; [exists x; split; reflexivity|]. apply H3. lia.
Qed.
Lemma find_first_le c s : forall i, find_first c s = Some i -> (i <= length s)%nat.
Proof.
  induction s as [|x s IH]; intros i; cbn; [discriminate|]. destruct (N.eqb x c); [intros H; injection H as <-; lia|].
  destruct (find_first c s) as [j|]; cbn; [|discriminate]. intros H. injection H as <-. specialize (IH j eq_refl). lia.
Qed.
Example prefix_lsm_ok : lsm_ok prefix_lsm.
Proof.
  intros h n. unfold prefix_lsm. destruct n as [|c n]; [repeat split; constructor|].
  destruct (find_first c h) as [i|] eqn:E; [|repeat split; constructor]. apply find_first_le in E.
  destruct (common_prefix_spec (skipn i h) (c :: n)) as (H1 & H2 & H3). rewrite skipn_length in H1. set (k := common_prefix _ _) in *. clearbody k.
  split; [split|].
  - constructor; [|constructor; [|constructor]]; unfold in_bounds, slen, b_a, b_b, b_n; cbn [fst snd]; lia.
  - constructor; [constructor; constructor|]. constructor; [|constructor]. unfold follows, slen, b_a, b_b, b_n. cbn [fst snd]. lia.
  - constructor; [|constructor; [|constructor]]; intros j Hj; unfold b_a, b_b, b_n in *; cbn [fst snd] in *; [|lia].
    destruct (H3 (Z.to_nat j)) as (d & D1 & D2); [lia|]. exists d. rewrite !py_at_pos by lia. rewrite nth_skipn in D1.
    replace (Z.to_nat (Z.of_nat i + j)) with (i + Z.to_nat j)%nat by lia. replace (Z.to_nat (0 + j)) with (Z.to_nat j) by lia. now rewrite D1, D2.
Qed.

Definition x_text (k : nat) : str := repeat 120%N k.
Definition long_text : str := x_text 1000 ++ u "ab cdefghij" ++ x_text 50 ++ u "klmnopqrst".
Example C32_ex : max_length_and_stride 1070 20 (8 # 10) = (1000, 976).
Proof. vm_compute. reflexivity. Qed.
Example C32_ex_visits : strided prefix_lsm 1 1100 (x_text 2500) (u "abcdefgh") 1000 976 (8 # 10) (default_is_junk ascii_alpha) 0 = Ok ([], [0; 976; 1952]).
Proof. vm_compute. reflexivity. Qed.
Example C34_ex : fuzzy_search_index_range_chunks prefix_lsm first_word ascii_alpha 1100 long_text (u "abc defghij") (8 # 10) 5 1 3 None = Ok (Some [(1000, 1011)]).
Proof. vm_compute. reflexivity. Qed.
Example C33_ex : exists l, iter_fuzzy_search_all prefix_lsm first_word ascii_alpha 100 (u "abcde, xabcde ab cde") (u "abcde") (8 # 10) 5 1 0 None = Ok l /\
  map a_index_range l = [(0, 5); (8, 13); (14, 20)].
Proof. eexists. split; vm_compute; reflexivity. Qed.

(** Two chunks: the first chunk is reported relative to its window, not to the haystack. *)
Theorem C34_chunks_refuted : exists h n l m x, lsm_ok prefix_lsm /\ words_ok first_word /\
  fuzzy_search_chunks prefix_lsm first_word ascii_alpha (S (length h)) h n (8 # 10) 5 2 0 None = Ok (Some l) /\
  In m l /\ In x (f_blocks m) /\ ~ hit h n 0 x.
Proof.
  exists long_text, (u "abcdefghijklmnopqrst").
  destruct (fuzzy_search_chunks prefix_lsm first_word ascii_alpha (S (length long_text)) long_text (u "abcdefghijklmnopqrst") (8 # 10) 5 2 0 None) as [[l|]|] eqn:E;
    [|vm_compute in E; discriminate..].
  assert (Hl : exists j m2, l = [mkF long_text (u "abcdefghijklmnopqrst") [(24, 0, 10)] j; m2]).
  { vm_compute in E. injection E as <-. do 2 eexists. vm_compute. reflexivity. }
  destruct Hl as (j & m2 & ->). do 2 eexists. exists (24, 0, 10). split; [apply prefix_lsm_ok|]. split; [apply C30_ex_ok|]. split; [reflexivity|].
  split; [left; reflexivity|]. split; [left; reflexivity|].
  intros (_ & _ & _ & _ & e & He & Hq). vm_compute (b_b _) in He. vm_compute (b_b _) in Hq.
  assert (Hx : nth_error (squeeze (py_slice long_text (b_a (24, 0, 10)) (b_a (24, 0, 10) + b_n (24, 0, 10)))) 0 = Some 120%N) by (vm_compute; reflexivity).
  rewrite Hq in Hx. rewrite py_slice_pos in Hx by lia. replace (Z.to_nat e - Z.to_nat 0)%nat with (S (Z.to_nat e - 1)) in Hx by lia.
  cbn in Hx. discriminate.
Qed.
(** Threshold 0: a search without any match is reported, with the empty range at 0, even behind a start. *)
Theorem C33_zero_refuted : exists h n start l, words_ok first_word /\ 0 < start /\
  iter_fuzzy_search_all prefix_lsm first_word ascii_alpha (S (length h)) h n 0 5 1 start None = Ok l /\
  exists m, In m l /\ a_index_range m = (0, 0).
Proof.
  exists (u "ab cd"), (u "xy"), 3. eexists. split; [apply C30_ex_ok|]. split; [lia|]. split; [vm_compute; reflexivity|].
  eexists. split; [left; reflexivity|]. vm_compute. reflexivity.
Qed.
(** The block sizes of a character search count the spaces of the haystack, so the
    ratio of a reported match can exceed 1. *)
Theorem C28_reported_refuted : exists h n l m r, lsm_ok prefix_lsm /\
  fuzzy_search_chunks prefix_lsm first_word ascii_alpha (S (length h)) h n (8 # 10) 5 1 0 None = Ok (Some l) /\
  In m l /\ b_gap_ratio_fixed m = Ok r /\ ~ (r <= 1)%Q.
Proof.
  exists (u "a b c d e"), (u "abcde"). do 3 eexists. split; [apply prefix_lsm_ok|]. split; [vm_compute; reflexivity|].
  split; [left; reflexivity|]. split; [vm_compute; reflexivity|]. vm_compute. congruence.
Qed.

Print Assumptions C32_overlap.
Print Assumptions C32_visits.
Print Assumptions C32_terminates.
Print Assumptions C32_total.
Print Assumptions C32_search.
Print Assumptions C33_terminates.
Print Assumptions C33_ranges.
Print Assumptions C33_zero_refuted.
Print Assumptions C34_positions.
Print Assumptions C34_range.
Print Assumptions C34_chunks_refuted.
Print Assumptions C28_reported_refuted.
