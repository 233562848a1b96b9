(** C35, C36, C58-C60: target annotations. *)
From Coq Require Import Permutation Sorted.
From Verif Require Import Base ModelFuzzyMatch ModelClusters PropFuzzyMatch PropClusters ModelTarget.
Open Scope Z_scope.

(** * C35 *)
(** Specification: every maximal run of tab, space, carriage return and line feed
    becomes one line feed if there is a line break in it, one space otherwise.
    [run] says what has been seen of the current run. *)
Definition ws4 (c : N) : bool := N.eqb c 9 || N.eqb c 10 || N.eqb c 13 || N.eqb c 32.
Definition is_break (c : N) : bool := N.eqb c 10 || N.eqb c 13.
Definition emit (run : option bool) : str :=
  match run with None => [] | Some true => [10%N] | Some false => [32%N] end.
Definition more (run : option bool) (b : bool) : option bool :=
  Some (b || match run with Some b' => b' | None => false end).
Fixpoint norm_go (run : option bool) (s : str) : str :=
  match s with
  | [] => emit run
  | c :: s' => if ws4 c then norm_go (more run (is_break c)) s'
               else emit run ++ c :: norm_go None s'
  end.
Definition norm (s : str) : str := norm_go None s.
Definition word_chars (s : str) : str := filter (fun c => negb (ws4 c)) s.
(** two adjacent characters *)
Definition adjacent (s : str) (x y : N) : Prop := exists a b, s = a ++ x :: y :: b.

Inductive repl (old new : str) : str -> str -> Prop :=
| R_nil : repl old new [] []
| R_hit s s' : repl old new s s' -> repl old new (old ++ s) (new ++ s')
| R_miss c s s' : starts_with old (c :: s) = false -> repl old new s s' -> repl old new (c :: s) (c :: s').

Lemma replace_go_skip old new : forall k s, replace_go old new k s = replace_go old new 0 (skipn k s).
Proof.
  intros k s; revert k; induction s as [|c s IH]; intros [|k]; try reflexivity. cbn [replace_go skipn]. apply IH.
Qed.
Lemma py_replace_repl old new s : old <> [] -> repl old new s (py_replace old new s).
Proof.
  intros Hne. unfold py_replace. assert (exists n, (length s <= n)%nat) as [n Hn] by (exists (length s); lia).
  revert s Hn; induction n as [|n IH]; intros s Hn.
  - destruct s; [constructor | cbn in Hn; lia].
  - destruct s as [|c s]; [constructor|]. cbn [replace_go].
    destruct (starts_with old (c :: s)) eqn:E.
    + apply starts_with_spec in E as [r E]. rewrite E.
      assert (Q : replace_go old new (length old - 1) s = replace_go old new 0 r).
      { rewrite replace_go_skip. f_equal. destruct old as [|o old]; [easy|].
        cbn in E. injection E as -> ->. cbn [length]. replace (S (length old) - 1)%nat with (length old + 0)%nat by lia.
        rewrite skipn_app. replace (length old + 0 - length old)%nat with 0%nat by lia.
        rewrite skipn_all2 by lia. reflexivity. }
      rewrite Q. apply R_hit, IH. apply (f_equal (@length N)) in E. rewrite app_length in E. cbn in E, Hn.
      destruct old; [easy|cbn in E; lia].
    + apply R_miss; [exact E | apply IH; cbn in Hn; lia].
Qed.

(** measure *)
Definition wt (c : N) : nat := if N.eqb c 9 || N.eqb c 13 then 2 else 1.
Fixpoint weight (s : str) : nat := match s with [] => 0 | c :: s' => wt c + weight s' end.
Lemma weight_app a b : weight (a ++ b) = (weight a + weight b)%nat.
Proof. induction a; cbn [weight app]; lia. Qed.
Lemma weight_le s : (weight s <= 2 * length s)%nat.
Proof. induction s as [|c s IH]; cbn [weight length]; [lia|]. unfold wt. destruct (_ || _); lia. Qed.
Lemma wt_pos c : (1 <= wt c)%nat. Proof. unfold wt; destruct (_ || _); lia. Qed.

Section Step.
Variables (old new : str).
Hypothesis Hne : old <> [].
Hypothesis Hw : (weight new < weight old)%nat.
Lemma repl_weight s s' : repl old new s s' -> (weight s' <= weight s)%nat.
Proof. induction 1; cbn [weight]; rewrite ?weight_app; lia. Qed.
Lemma repl_eq s s' : repl old new s s' -> weight s' = weight s -> s' = s.
Proof.
  induction 1 as [|s s' R IH|c s s' E R IH]; intros Q; [reflexivity| |].
  - rewrite !weight_app in Q. apply repl_weight in R. lia.
  - cbn [weight] in Q. f_equal. apply IH. lia.
Qed.
Lemma repl_absent s s' : repl old new s s' -> weight s' = weight s -> forall a b, s <> a ++ old ++ b.
Proof.
  induction 1 as [|s s' R IH|c s s' E R IH]; intros Q p q F.
  - destruct p, old; easy.
  - rewrite !weight_app in Q. apply repl_weight in R. lia.
  - cbn [weight] in Q. destruct p as [|d p].
    + cbn in F. rewrite F in E. assert (starts_with old (old ++ q) = true) by (apply starts_with_spec; now exists q). congruence.
    + cbn in F. injection F as -> F. apply (IH ltac:(lia) _ _ F).
Qed.
Lemma replace_recursive_ok s : forall fuel, (weight s < fuel)%nat ->
  exists s', replace_recursive fuel old new s = Ok s' /\ (weight s' <= weight s)%nat
    /\ (forall a b, s' <> a ++ old ++ b)
    /\ (forall Q : str -> Prop, (forall t t', repl old new t t' -> Q t -> Q t') -> Q s -> Q s').
Proof.
  intros fuel. revert s; induction fuel as [|f IH]; intros s Hf; [lia|]. cbn [replace_recursive].
  pose proof (py_replace_repl old new s Hne) as R. set (t := py_replace old new s) in *. clearbody t.
  destruct (streq t s) eqn:E.
  - apply streq_true in E. subst t. exists s. repeat split; [lia | | auto].
    apply (repl_absent _ _ R eq_refl).
  - assert (weight t < weight s)%nat.
    { pose proof (repl_weight _ _ R). destruct (Nat.eq_dec (weight t) (weight s)) as [W|W]; [|lia].
      apply repl_eq in W; [|exact R]. subst. rewrite streq_refl in E. easy. }
    destruct (IH t ltac:(lia)) as (s' & R1 & R2 & R3 & R4). exists s'. repeat split; [exact R1 | lia | exact R3|].
    intros Q HQ H0. apply (R4 Q HQ). apply (HQ _ _ R H0).
Qed.
End Step.

(** what one replacement keeps *)
Lemma norm_ws w : forall run s, w <> [] -> forallb ws4 w = true ->
  norm_go run (w ++ s) = norm_go (more run (existsb is_break w)) s.
Proof.
  induction w as [|c w IH]; intros run s Hne Hw; [easy|]. cbn [forallb] in Hw. apply andb_true_iff in Hw as [Hc Hw].
  cbn [app norm_go existsb]. rewrite Hc. destruct w as [|d w].
  - cbn [app existsb]. now rewrite orb_false_r.
  - rewrite (IH _ _ ltac:(easy) Hw). f_equal. unfold more. f_equal. destruct (is_break c), (existsb is_break (d :: w)); reflexivity || (cbn; destruct run; reflexivity).
Qed.
Lemma repl_norm old new : old <> [] -> new <> [] -> forallb ws4 old = true -> forallb ws4 new = true ->
  existsb is_break old = existsb is_break new ->
  forall s s', repl old new s s' -> forall run, norm_go run s' = norm_go run s.
Proof.
  intros H1 H2 H3 H4 H5. induction 1 as [|s s' R IH|c s s' E R IH]; intros run; [reflexivity| |].
  - rewrite !norm_ws by assumption. rewrite IH. now rewrite H5.
  - cbn [norm_go]. destruct (ws4 c); [apply IH | now rewrite IH].
Qed.
Definition all_chars (P : N -> Prop) (s : str) : Prop := forall c, In c s -> P c.
Lemma repl_chars (P : N -> Prop) old new : (forall c, In c new -> P c) ->
  forall s s', repl old new s s' -> all_chars P s -> all_chars P s'.
Proof.
  intros Hn. unfold all_chars. induction 1 as [|s s' R IH|c s s' E R IH]; intros H d Hd; [easy| |].
  - apply in_app_or in Hd as [Hd|Hd]; [auto|]. apply IH; [|exact Hd]. intros; apply H, in_or_app; auto.
  - destruct Hd as [<-|Hd]; [apply H; now left|]. apply IH; [|exact Hd]. intros; apply H; now right.
Qed.
(** adjacent characters, [p] being the one before *)
Fixpoint chain (R : N -> N -> Prop) (p : N) (s : str) : Prop :=
  match s with [] => True | c :: s' => R p c /\ chain R c s' end.
Definition chained (R : N -> N -> Prop) (s : str) : Prop := match s with [] => True | c :: s' => chain R c s' end.
Lemma repl_chain2 (R : N -> N -> Prop) x y z :
  (forall p, R p x -> R p z) -> (forall q, R y q -> R z q) ->
  forall s s', repl [x; y] [z] s s' ->
  (forall p, chain R p s -> chain R p s') /\ (chain R y s -> chain R z s').
Proof.
  intros H1 H2. induction 1 as [|s s' r [IH1 IH2]|c s s' E r [IH1 IH2]].
  - easy.
  - cbn [app chain]. firstorder.
  - cbn [chain]. firstorder.
Qed.
Lemma repl_chained2 (R : N -> N -> Prop) x y z :
  (forall p, R p x -> R p z) -> (forall q, R y q -> R z q) ->
  forall s s', repl [x; y] [z] s s' -> chained R s -> chained R s'.
Proof.
  intros H1 H2 s s' r H. destruct r as [|s s' r|c s s' E r].
  - easy.
  - cbn [app chained chain] in *. apply (repl_chain2 R x y z H1 H2 _ _ r). easy.
  - cbn [chained] in *. now apply (repl_chain2 R x y z H1 H2 _ _ r).
Qed.
Lemma repl_chain1 (R : N -> N -> Prop) x z :
  (forall p, R p x -> R p z) -> (forall q, R x q -> R z q) ->
  forall s s', repl [x] [z] s s' ->
  (forall p, chain R p s -> chain R p s') /\ (chain R x s -> chain R z s').
Proof.
  intros H1 H2. induction 1 as [|s s' r [IH1 IH2]|c s s' E r [IH1 IH2]].
  - easy.
  - cbn [app chain]. firstorder.
  - cbn [chain]. firstorder.
Qed.
Lemma repl_chained1 (R : N -> N -> Prop) x z :
  (forall p, R p x -> R p z) -> (forall q, R x q -> R z q) ->
  forall s s', repl [x] [z] s s' -> chained R s -> chained R s'.
Proof.
  intros H1 H2 s s' r H. destruct r as [|s s' r|c s s' E r].
  - easy.
  - cbn [app chained chain] in *. now apply (repl_chain1 R x z H1 H2 _ _ r).
  - cbn [chained] in *. now apply (repl_chain1 R x z H1 H2 _ _ r).
Qed.
Lemma absent_chars x s : (forall a b, s <> a ++ [x] ++ b) -> all_chars (fun c => c <> x) s.
Proof. intros H c Hc ->. apply in_split in Hc as (a & b & ->). now apply (H a b). Qed.
Lemma absent_chain (R : N -> N -> Prop) x y : forall s p, chain R p s -> (forall a b, p :: s <> a ++ [x; y] ++ b) ->
  chain (fun p q => R p q /\ ~ (p = x /\ q = y)) p s.
Proof.
  induction s as [|c s IH]; intros p H F; [easy|]. cbn [chain] in *. destruct H as [H1 H2]. split; [split; [exact H1|]|].
  - intros [-> ->]. now apply (F [] s).
  - apply IH; [exact H2|]. intros a b Q. apply (F (p :: a) b). cbn. now rewrite Q.
Qed.
Lemma absent_chained (R : N -> N -> Prop) x y s : chained R s -> (forall a b, s <> a ++ [x; y] ++ b) ->
  chained (fun p q => R p q /\ ~ (p = x /\ q = y)) s.
Proof. destruct s as [|c s]; [easy|]. apply absent_chain. Qed.
Lemma chain_impl (R R' : N -> N -> Prop) (P : N -> Prop) : (forall p q, P p -> P q -> R p q -> R' p q) ->
  forall s p, all_chars P (p :: s) -> chain R p s -> chain R' p s.
Proof.
  intros H. induction s as [|c s IH]; intros p HP Hc; [easy|]. destruct Hc as [H1 H2]. split.
  - apply H; [apply HP; cbn; auto | apply HP; cbn; auto | exact H1].
  - apply IH; [|exact H2]. intros d Hd. apply HP. now right.
Qed.

(** a string with single spaces and line feeds only is its own normal form *)
Definition tidy_pair (p q : N) : Prop := ws4 p = true -> ws4 q = true -> False.
Definition tidy_char (c : N) : Prop := c <> 9%N /\ c <> 13%N.
Lemma ws4_emit c : ws4 c = true -> tidy_char c -> emit (more None (is_break c)) = [c].
Proof.
  unfold ws4, tidy_char, is_break. intros H [H1 H2]. apply N.eqb_neq in H1, H2. rewrite H1, H2 in H. cbn in H.
  rewrite orb_false_r in H. unfold more. cbn. rewrite H2. destruct (N.eqb c 10) eqn:E.
  - apply N.eqb_eq in E. now subst.
  - cbn in H. apply N.eqb_eq in H. now subst.
Qed.
Lemma norm_tidy : forall s p, all_chars tidy_char (p :: s) -> chain tidy_pair p s -> norm_go None (p :: s) = p :: s.
Proof.
  assert (G : forall n s p, (length s <= n)%nat -> all_chars tidy_char (p :: s) -> chain tidy_pair p s -> norm_go None (p :: s) = p :: s).
  { induction n as [|n IH]; intros s p Hn HP Hc.
    - destruct s; [|cbn in Hn; lia]. cbn [norm_go]. destruct (ws4 p) eqn:E; [|reflexivity].
      apply ws4_emit; [exact E | apply HP; now left].
    - cbn [norm_go]. destruct (ws4 p) eqn:E.
      + destruct s as [|c s]; [apply ws4_emit; [exact E | apply HP; now left]|].
        cbn [norm_go]. destruct Hc as [H1 H2]. destruct (ws4 c) eqn:E2; [now destruct (H1 E E2)|].
        rewrite ws4_emit; [|exact E|apply HP; now left]. cbn [app]. do 2 f_equal.
        destruct s as [|d s]; [reflexivity|]. apply IH; [cbn in *; lia | | apply H2].
        intros d' Hd. apply HP. now right; right.
      + cbn [emit app]. f_equal. destruct s as [|c s]; [reflexivity|].
        apply IH; [cbn in *; lia | | apply Hc]. intros d' Hd. apply HP. now right. }
  intros s p. apply (G (length s)). lia.
Qed.

Theorem C35_normal fuel s : (2 * length s < fuel)%nat -> strip_whitespace fuel s = Ok (norm s).
Proof.
  intros Hf. pose proof (weight_le s) as W0.
  unfold strip_whitespace, replacements. cbn [foldM fst snd].
  destruct (replace_recursive_ok [ch_tab] [ch_sp] ltac:(easy) ltac:(cbn; lia) s fuel ltac:(lia)) as (s1 & -> & W1 & A1 & Q1).
  cbn [bind].
  destruct (replace_recursive_ok [ch_sp; ch_sp] [ch_sp] ltac:(easy) ltac:(cbn; lia) s1 fuel ltac:(lia)) as (s2 & -> & W2 & A2 & Q2).
  cbn [bind].
  destruct (replace_recursive_ok [ch_cr] [ch_lf] ltac:(easy) ltac:(cbn; lia) s2 fuel ltac:(lia)) as (s3 & -> & W3 & A3 & Q3).
  cbn [bind].
  destruct (replace_recursive_ok [ch_sp; ch_lf] [ch_lf] ltac:(easy) ltac:(cbn; lia) s3 fuel ltac:(lia)) as (s4 & -> & W4 & A4 & Q4).
  cbn [bind].
  destruct (replace_recursive_ok [ch_lf; ch_sp] [ch_lf] ltac:(easy) ltac:(cbn; lia) s4 fuel ltac:(lia)) as (s5 & -> & W5 & A5 & Q5).
  cbn [bind].
  destruct (replace_recursive_ok [ch_lf; ch_lf] [ch_lf] ltac:(easy) ltac:(cbn; lia) s5 fuel ltac:(lia)) as (s6 & -> & W6 & A6 & Q6).
  cbn [bind]. f_equal.
  assert (NQ : forall old new t t', repl old new t t' -> old <> [] -> new <> [] -> forallb ws4 old = true -> forallb ws4 new = true ->
    existsb is_break old = existsb is_break new -> norm t = norm s -> norm t' = norm s).
  { intros old new t t' R H1 H2 H3 H4 H5 E. rewrite <- E. now apply (repl_norm old new). }
  assert (N1 : norm s1 = norm s) by (apply (Q1 (fun t => norm t = norm s)); [|reflexivity]; intros t t' R; apply (NQ _ _ _ _ R); solve [easy | reflexivity]).
  assert (N2 : norm s2 = norm s) by (apply (Q2 (fun t => norm t = norm s)); [|exact N1]; intros t t' R; apply (NQ _ _ _ _ R); solve [easy | reflexivity]).
  assert (N3 : norm s3 = norm s) by (apply (Q3 (fun t => norm t = norm s)); [|exact N2]; intros t t' R; apply (NQ _ _ _ _ R); solve [easy | reflexivity]).
  assert (N4 : norm s4 = norm s) by (apply (Q4 (fun t => norm t = norm s)); [|exact N3]; intros t t' R; apply (NQ _ _ _ _ R); solve [easy | reflexivity]).
  assert (N5 : norm s5 = norm s) by (apply (Q5 (fun t => norm t = norm s)); [|exact N4]; intros t t' R; apply (NQ _ _ _ _ R); solve [easy | reflexivity]).
  assert (N6 : norm s6 = norm s) by (apply (Q6 (fun t => norm t = norm s)); [|exact N5]; intros t t' R; apply (NQ _ _ _ _ R); solve [easy | reflexivity]).
  clear NQ.
  (* no tab from s1 on, no carriage return from s3 on *)
  assert (TC : forall x old z, z <> x -> forall t t', repl old [z] t t' -> all_chars (fun c => c <> x) t -> all_chars (fun c => c <> x) t').
  { intros x old z Hz. apply repl_chars. intros c [<-|[]]. exact Hz. }
  assert (T1 : all_chars (fun c => c <> ch_tab) s1) by (now apply absent_chars).
  assert (T6 : all_chars (fun c => c <> ch_tab) s6).
  { apply (Q6 _ (TC ch_tab _ ch_lf ltac:(discriminate))), (Q5 _ (TC ch_tab _ ch_lf ltac:(discriminate))), (Q4 _ (TC ch_tab _ ch_lf ltac:(discriminate))),
      (Q3 _ (TC ch_tab _ ch_lf ltac:(discriminate))), (Q2 _ (TC ch_tab _ ch_sp ltac:(discriminate))). exact T1. }
  assert (K3 : all_chars (fun c => c <> ch_cr) s3) by (now apply absent_chars).
  assert (K6 : all_chars (fun c => c <> ch_cr) s6).
  { apply (Q6 _ (TC ch_cr _ ch_lf ltac:(discriminate))), (Q5 _ (TC ch_cr _ ch_lf ltac:(discriminate))), (Q4 _ (TC ch_cr _ ch_lf ltac:(discriminate))). exact K3. }
  (* adjacent pairs *)
  set (R0 := fun _ _ : N => True).
  assert (C0 : forall w c, chain R0 c w) by (induction w as [|d w IHw]; intros c; [exact I | split; [exact I | apply IHw]]).
  assert (C1 : chained R0 s2) by (destruct s2; [exact I | apply C0]).
  pose (P2 := fun p q : N => R0 p q /\ ~ (p = ch_sp /\ q = ch_sp)).
  pose (P4 := fun p q : N => P2 p q /\ ~ (p = ch_sp /\ q = ch_lf)).
  pose (P5 := fun p q : N => P4 p q /\ ~ (p = ch_lf /\ q = ch_sp)).
  pose (P6 := fun p q : N => P5 p q /\ ~ (p = ch_lf /\ q = ch_lf)).
  assert (C2 : chained P2 s2) by exact (absent_chained R0 ch_sp ch_sp s2 C1 A2).
  assert (C3 : chained P2 s3).
  { apply (Q3 (chained P2)); [|exact C2]. apply repl_chained1; unfold P2, R0; intros c; intuition discriminate. }
  assert (C4 : chained P4 s4).
  { apply (absent_chained P2 ch_sp ch_lf); [|exact A4]. apply (Q4 (chained P2)); [|exact C3].
    apply repl_chained2; unfold P2, R0; intros c; intuition discriminate. }
  assert (C5 : chained P5 s5).
  { apply (absent_chained P4 ch_lf ch_sp); [|exact A5]. apply (Q5 (chained P4)); [|exact C4].
    apply repl_chained2; unfold P4, P2, R0; intros c; intuition discriminate. }
  assert (C6 : chained P6 s6).
  { apply (absent_chained P5 ch_lf ch_lf); [|exact A6]. apply (Q6 (chained P5)); [|exact C5].
    apply repl_chained2; unfold P5, P4, P2, R0; intros c; intuition discriminate. }
  rewrite <- N6. destruct s6 as [|p w]; [reflexivity|]. symmetry. cbn [chained] in C6.
  apply norm_tidy.
  - intros c Hc. split; [apply (T6 c Hc) | apply (K6 c Hc)].
  - revert C6. apply chain_impl with (P := tidy_char).
    + unfold P6, P5, P4, P2. clear. intros a b [A1 A2] [B1 B2] H. unfold tidy_pair, ws4. intros Wa Wb.
      apply N.eqb_neq in A1, A2, B1, B2. rewrite A1, A2 in Wa. rewrite B1, B2 in Wb. cbn in Wa, Wb.
      rewrite ?orb_false_r in Wa, Wb. apply orb_true_iff in Wa, Wb. rewrite !N.eqb_eq in Wa, Wb.
      unfold ch_sp, ch_lf in H. destruct Wa as [-> | ->], Wb as [-> | ->]; intuition.
    + intros c Hc. split; [apply (T6 c Hc) | apply (K6 c Hc)].
Qed.

Lemma norm_tidy_out : forall s run, chained tidy_pair (norm_go run s) /\ (forall p, ws4 p = false -> chain tidy_pair p (norm_go run s))
  /\ all_chars (fun c => c <> 9%N /\ c <> 13%N) (norm_go run s).
Proof.
  assert (E : forall run c, In c (emit run) -> c <> 9%N /\ c <> 13%N).
  { intros [[|]|] c; cbn; intuition; subst; discriminate. }
  induction s as [|c s IH]; intros run; cbn [norm_go].
  - repeat split; [destruct run as [[|]|]; exact I | | apply (E run); assumption | apply (E run); assumption].
    intros p Hp. destruct run as [[|]|]; cbn; unfold tidy_pair; intuition congruence.
  - destruct (ws4 c) eqn:W; [apply IH|]. destruct (IH None) as (I1 & I2 & I3). specialize (I2 c W). repeat split.
    + destruct run as [[|]|]; cbn; unfold tidy_pair; intuition congruence.
    + intros p Hp. destruct run as [[|]|]; cbn; unfold tidy_pair; intuition congruence.
    + apply in_app_or in H as [H|[<-|H]]; [apply (E run c0 H) | intros ->; discriminate | apply (I3 _ H)].
    + apply in_app_or in H as [H|[<-|H]]; [apply (E run c0 H) | intros ->; discriminate | apply (I3 _ H)].
Qed.
Lemma chain_adjacent (R : N -> N -> Prop) x y b : forall a p, chain R p (a ++ x :: y :: b) -> R x y.
Proof. induction a as [|c a IH]; cbn [app chain]; [now intros p (_ & H & _) | intros p [_ H]; apply (IH _ H)]. Qed.

(** Nothing but spaces and line feeds, never two in a row; everything else is kept in
    order; doing it again changes nothing. *)
Theorem C35_shape fuel s r : (2 * length s < fuel)%nat -> strip_whitespace fuel s = Ok r ->
  word_chars r = word_chars s
  /\ (forall c, In c r -> c <> 9%N /\ c <> 13%N)
  /\ (forall x y, adjacent r x y -> ws4 x = true -> ws4 y = true -> False)
  /\ norm r = r.
Proof.
  intros Hf. rewrite C35_normal by exact Hf. intros [= <-]. destruct (norm_tidy_out s None) as (H1 & H2 & H3). repeat split.
  - unfold norm, word_chars. generalize (@None bool) as run. induction s as [|c s IH]; intros run.
    + destruct run as [[|]|]; reflexivity.
    + assert (IH' : forall run, filter (fun c => negb (ws4 c)) (norm_go run s) = filter (fun c => negb (ws4 c)) s).
      { intros run'. apply IH; [cbn [length] in Hf; lia | apply norm_tidy_out | apply norm_tidy_out | apply norm_tidy_out]. }
      cbn [norm_go filter]. destruct (ws4 c) eqn:E; cbn [negb]; [apply IH'|].
      rewrite filter_app. cbn [filter]. rewrite E. cbn [negb]. rewrite IH'. destruct run as [[|]|]; reflexivity.
  - apply (H3 c H).
  - apply (H3 c H).
  - intros x y (a & b & E). unfold norm in E. rewrite E in H1. destruct a as [|c a]; cbn [app chained] in H1.
    + destruct H1 as [H1 _]. exact H1.
    + apply (chain_adjacent _ _ _ _ _ _ H1).
  - fold (norm s) in *. destruct (norm s) as [|p w]; [reflexivity|]. apply norm_tidy; [exact H3 | exact H1].
Qed.
Theorem C35_idempotent fuel s r : (2 * length s < fuel)%nat -> strip_whitespace fuel s = Ok r ->
  strip_whitespace (2 * length r + 1) r = Ok r.
Proof.
  intros Hf E. destruct (C35_shape fuel s r Hf E) as (_ & _ & _ & N). rewrite C35_normal by lia. now rewrite N.
Qed.

Section Strip.
Variable sp : N -> bool.
Hypothesis sp_ws4 : forall c, ws4 c = true -> sp c = true.
Definition no_outer_space (s : str) : Prop :=
  forall c s', (s = c :: s' \/ s = s' ++ [c]) -> sp c = false.
Lemma lstrip_spec s : exists w, s = w ++ lstrip sp s /\ forallb sp w = true /\ (forall c s', lstrip sp s = c :: s' -> sp c = false).
Proof.
  induction s as [|c s (w & I1 & I2 & I3)]; [exists []; easy|]. cbn [lstrip]. destruct (sp c) eqn:E.
  - exists (c :: w). cbn [app forallb]. rewrite E, I2. now rewrite <- I1.
  - exists []. repeat split; auto. intros d s' [= <- <-]. exact E.
Qed.
Lemma strip_spec s : exists w w', s = w ++ strip sp s ++ w' /\ forallb sp w = true /\ forallb sp w' = true /\ no_outer_space (strip sp s).
Proof.
  unfold strip. destruct (lstrip_spec s) as (w & I1 & I2 & I3). set (t := lstrip sp s) in *. clearbody t.
  destruct (lstrip_spec (rev t)) as (w' & J1 & J2 & J3). set (v := lstrip sp (rev t)) in *. clearbody v.
  apply (f_equal (@rev N)) in J1. rewrite rev_involutive, rev_app_distr in J1. exists w, (rev w'). repeat split.
  - now rewrite I1, J1.
  - exact I2.
  - rewrite forallb_forall in *. intros c Hc. apply J2. now apply in_rev.
  - intros c s' [E|E].
    + rewrite E in J1. apply (I3 c (s' ++ rev w')). now rewrite J1.
    + apply (f_equal (@rev N)) in E. rewrite rev_involutive, rev_app_distr in E. apply (J3 c (rev s')). exact E.
Qed.
Lemma norm_last c : ws4 c = false -> forall s run, exists x, norm_go run (s ++ [c]) = x ++ [c].
Proof.
  intros W. induction s as [|d s IH]; intros run; cbn [app norm_go].
  - rewrite W. exists (emit run). reflexivity.
  - destruct (ws4 d); [apply IH|]. destruct (IH None) as [x ->]. exists (emit run ++ d :: x). now rewrite <- app_assoc.
Qed.
Theorem C35_stripped fuel content : (2 * length content < fuel)%nat ->
  exists r, stripped_text sp fuel content = Ok r /\ no_outer_space r /\ word_chars r = word_chars (strip sp content).
Proof.
  intros Hf. unfold stripped_text. destruct (strip_spec content) as (w & w' & E & _ & _ & O).
  assert (L : (2 * length (strip sp content) < fuel)%nat).
  { apply (f_equal (@length N)) in E. rewrite !app_length in E. lia. }
  rewrite C35_normal by exact L. eexists. split; [reflexivity|]. split.
  - set (t := strip sp content) in *. clearbody t.
    assert (W : forall c, sp c = false -> ws4 c = false) by (intros c Hc; destruct (ws4 c) eqn:F; [rewrite (sp_ws4 _ F) in Hc; easy | reflexivity]).
    destruct t as [|c t]; [intros d s' [F|F]; [easy | destruct s'; easy]|].
    assert (Hc : sp c = false) by (apply (O c t); auto).
    destruct (exists_last (l := c :: t) ltac:(easy)) as (x & d & Q).
    assert (Hd : sp d = false) by (apply (O d x); auto).
    intros b s' [F|F].
    + unfold norm in F. cbn [norm_go] in F. rewrite (W _ Hc) in F. cbn in F. injection F as <- _. exact Hc.
    + unfold norm in F. rewrite Q in F. destruct (norm_last d (W _ Hd) x None) as [y Y]. rewrite Y in F.
      apply app_inj_tail in F as [_ ->]. exact Hd.
  - apply (C35_shape fuel (strip sp content)); [exact L | apply C35_normal; exact L].
Qed.
End Strip.

(** * C36 *)
Lemma sort_stable {A} (leb : A -> A -> bool) (f : A -> bool) : (forall a b, f a = true -> f b = true -> leb a b = true) ->
  forall l, filter f (sort leb l) = filter f l.
Proof.
  intros H. assert (I : forall x l, filter f (insert leb x l) = filter f (x :: l)).
  { intros x. induction l as [|y l IH]; [reflexivity|]. cbn [insert]. destruct (leb x y) eqn:E; [reflexivity|].
    cbn [filter] in *. rewrite IH. destruct (f x) eqn:Fx, (f y) eqn:Fy; try reflexivity. rewrite H in E by assumption. easy. }
  induction l as [|x l IH]; [reflexivity|]. cbn [sort fold_right]. fold (sort leb l). rewrite I. cbn [filter]. now rewrite IH.
Qed.
Lemma key_total a b : key_leb a b = true \/ key_leb b a = true.
Proof.
  destruct a as [[p e] i], b as [[p' e'] i']. unfold key_leb, optz_leb.
  destruct i as [i|], i' as [i'|]; lia.
Qed.
Lemma key_trans a b c : key_leb a b = true -> key_leb b c = true -> key_leb a c = true.
Proof.
  destruct a as [[p e] i], b as [[p' e'] i'], c as [[q g] j]. unfold key_leb, optz_leb.
  destruct i as [i|], i' as [i'|], j as [j|]; lia.
Qed.
Notation entry_leb := (fun a b : key * target => key_leb (fst a) (fst b)).

(** What an element contributes: its texts as one annotation, its stand-alone values as
    one annotation each. *)
Definition contributes (f : field) (m : match_) (t : target) : Prop :=
  ta_name t = fd_name f /\
  match ta_value t with
  | VOne s => m_texts m = [s] \/ In s (m_standalone m)
  | VMany l => Permutation l (m_texts m) /\ (2 <= length l)%nat /\ StronglySorted (fun a b => slen b <= slen a) l
  end.
Definition wanted_number (m : match_) : nat := (match m_texts m with [] => 0 | _ => 1 end) + length (m_standalone m).

Lemma longest_perm l : Permutation (longest_first l) l.
Proof. apply sort_perm. Qed.
Lemma longest_sorted l : StronglySorted (fun a b => slen b <= slen a) (longest_first l).
Proof.
  assert (G : StronglySorted (fun a b : str => (slen b <=? slen a) = true) (longest_first l)).
  { apply sort_sorted; intros; lia. }
  revert G. generalize (longest_first l). intros k G. induction G as [|a k G IH H]; constructor; [exact IH|].
  eapply Forall_impl; [|exact H]. intros b Hb. cbn in Hb. lia.
Qed.
Lemma match_entries_length f m : length (match_entries f m) = wanted_number m.
Proof.
  unfold match_entries, wanted_number. rewrite app_length, map_length. unfold indexed. rewrite combine_length, map_length, seq_length, Nat.min_id.
  destruct (m_texts m) as [|x [|y k]]; reflexivity.
Qed.
Lemma match_entries_spec f m e : In e (match_entries f m) ->
  contributes f m (snd e) /\ fst (fst (fst e)) = - fd_priority f /\ snd (fst (fst e)) = m_pos m.
Proof.
  unfold match_entries. intros H. apply in_app_or in H as [H|H].
  - destruct (text_value (m_texts m)) as [v|] eqn:V; [|easy]. destruct H as [<-|[]]. cbn [fst snd]. split; [|auto].
    split; [reflexivity|]. cbn [ta_value]. destruct (m_texts m) as [|x [|y k]] eqn:T; cbn [text_value] in V; [easy| |].
    + injection V as <-. now left.
    + assert (v = VMany (longest_first (x :: y :: k))) as -> by congruence. split; [apply longest_perm|]. split; [|apply longest_sorted]. rewrite (Permutation_length (longest_perm _)). cbn; lia.
  - apply in_map_iff in H as ([i v] & <- & H). cbn [fst snd]. split; [|auto]. split; [reflexivity|]. cbn [ta_value]. right.
    apply in_combine_r in H. exact H.
Qed.

Theorem C36_permutation l : Permutation (target_annotations l) (map snd (entries l)).
Proof. apply Permutation_map, sort_perm. Qed.
(** one annotation per matched element with a text and one per stand-alone value *)
Theorem C36_nothing_lost l :
  (forall t, In t (target_annotations l) -> exists f m, In f l /\ In m (fd_matches f) /\ contributes f m t)
  /\ (forall f m, In f l -> In m (fd_matches f) -> m_texts m <> [] ->
        exists t, In t (target_annotations l) /\ ta_name t = fd_name f
          /\ match ta_value t with VOne s => m_texts m = [s] | VMany k => Permutation k (m_texts m) end)
  /\ (forall f m s, In f l -> In m (fd_matches f) -> In s (m_standalone m) -> In (mkTarget (fd_name f) (VOne s)) (target_annotations l))
  /\ length (target_annotations l) = list_sum (map (fun f => list_sum (map wanted_number (fd_matches f))) l).
Proof.
  assert (P : forall t, In t (target_annotations l) <-> In t (map snd (entries l))).
  { intros t. split; apply Permutation_in; [|symmetry]; apply C36_permutation. }
  assert (Q : forall t, In t (map snd (entries l)) <-> exists f m, In f l /\ In m (fd_matches f) /\ In t (map snd (match_entries f m))).
  { intros t. unfold entries. rewrite in_map_iff. split.
    - intros (e & <- & H). apply in_flat_map in H as (f & Hf & H). apply in_flat_map in H as (m & Hm & H).
      exists f, m. repeat split; auto. now apply in_map.
    - intros (f & m & Hf & Hm & H). apply in_map_iff in H as (e & <- & H). exists e. split; [reflexivity|].
      apply in_flat_map. exists f. split; [exact Hf|]. apply in_flat_map. now exists m. }
  repeat split.
  - intros t H. apply P, Q in H as (f & m & Hf & Hm & H). exists f, m. repeat split; auto;
      apply in_map_iff in H as (e & <- & H); apply match_entries_spec in H as [[H1 H2] _]; auto.
  - intros f m Hf Hm Hne. destruct (text_value (m_texts m)) as [v|] eqn:V; [|destruct (m_texts m) as [|x [|y k]]; easy].
    exists (mkTarget (fd_name f) v). repeat split.
    + apply P, Q. exists f, m. repeat split; auto. unfold match_entries. rewrite V. now left.
    + cbn [ta_value]. destruct (m_texts m) as [|x [|y k]] eqn:T; cbn [text_value] in V; [easy|now injection V as <-|].
      assert (v = VMany (longest_first (x :: y :: k))) as -> by congruence. apply longest_perm.
  - intros f m s Hf Hm Hs. apply P, Q. exists f, m. repeat split; auto. unfold match_entries. rewrite map_app. apply in_or_app. right.
    apply in_map_iff. unfold indexed. apply In_nth_error in Hs as [i Hi].
    exists ((- fd_priority f, m_pos m, Some (Z.of_nat i)), mkTarget (fd_name f) (VOne s)). split; [reflexivity|].
    apply in_map_iff. exists (Z.of_nat i, s). split; [reflexivity|].
    assert (L : (i < length (m_standalone m))%nat) by (apply nth_error_Some; congruence).
    assert (C : forall (A B : Type) (a : list A) (b : list B) n x y, nth_error a n = Some x -> nth_error b n = Some y -> In (x, y) (combine a b)).
    { clear. induction a as [|c a IH]; intros [|d b] [|n] x y H1 H2; try discriminate; cbn in *.
      - left; congruence.
      - right. eapply IH; eauto. }
    eapply C; [|exact Hi]. apply map_nth_error. rewrite (nth_error_nth' _ 0%nat) by (now rewrite seq_length). now rewrite seq_nth.
  - rewrite (Permutation_length (C36_permutation l)), map_length. unfold entries. clear. induction l as [|f l IH]; [reflexivity|].
    cbn [flat_map map list_sum fold_right]. rewrite app_length, IH. f_equal.
    generalize (fd_matches f). intros k. induction k as [|m k IHk]; [reflexivity|]. cbn [flat_map map list_sum fold_right].
    rewrite app_length, match_entries_length, IHk. reflexivity.
Qed.

(** Order: higher priority first, then document order, then the text before the
    stand-alone values; equal keys in the order in which they were found. *)
Definition goes_before (a b : key * target) : Prop :=
  let '((p, e, i), _) := a in let '((p', e', i'), _) := b in
  - p > - p' \/ p = p' /\ (e < e' \/ e = e' /\ (i = None \/ exists x y, i = Some x /\ i' = Some y /\ x <= y)).
Theorem C36_sorted l : StronglySorted goes_before (sorted_entries l).
Proof.
  assert (G : StronglySorted (fun a b => entry_leb a b = true) (sorted_entries l)).
  { apply sort_sorted; intros; [apply key_total | eapply key_trans; eassumption]. }
  revert G. generalize (sorted_entries l). intros k G. induction G as [|a k G IH H]; constructor; [exact IH|].
  eapply Forall_impl; [|exact H]. intros b Hb. destruct a as [[[p e] i] t], b as [[[p' e'] i'] t']. unfold goes_before.
  unfold key_leb, optz_leb in Hb. cbn [fst] in Hb. destruct i as [i|], i' as [i'|].
  - assert (p < p' \/ p = p' /\ (e < e' \/ e = e' /\ i <= i')) as [?|[? [?|[? ?]]]] by lia; [left; lia| |]; right; (split; [assumption|]); [now left|right].
    split; [assumption|]. right. now exists i, i'.
  - assert (p < p' \/ p = p' /\ e < e') as [?|[? ?]] by lia; [left; lia | right; auto].
  - assert (p < p' \/ p = p' /\ (e < e' \/ e = e')) as [?|[? [?|?]]] by lia; [left; lia| |]; right; auto.
  - assert (p < p' \/ p = p' /\ (e < e' \/ e = e')) as [?|[? [?|?]]] by lia; [left; lia| |]; right; auto.
Qed.
Definition optz_eqb (a b : option Z) : bool := match a, b with None, None => true | Some x, Some y => x =? y | _, _ => false end.
Definition key_eqb (a b : key) : bool :=
  let '(p, e, i) := a in let '(p', e', i') := b in (p =? p') && (e =? e') && optz_eqb i i'.
Theorem C36_stable l k : filter (fun e => key_eqb (fst e) k) (sorted_entries l) = filter (fun e => key_eqb (fst e) k) (entries l).
Proof.
  apply sort_stable. intros [a t] [b t'] H1 H2. cbn [fst] in *. destruct a as [[p e] i], b as [[p' e'] i'], k as [[q g] j].
  unfold key_eqb, key_leb, optz_leb, optz_eqb in *. destruct i, i', j; try lia; rewrite andb_false_r in *; discriminate.
Qed.
(** An annotation of a field never comes after one of a field with a lower priority. *)
Theorem C36_priority l x a y b z f g :
  NoDup (map fd_name l) -> In f l -> In g l ->
  target_annotations l = x ++ a :: y ++ b :: z -> ta_name a = fd_name f -> ta_name b = fd_name g ->
  fd_priority g <= fd_priority f.
Proof.
  intros Hnd Hf Hg E Ha Hb. unfold target_annotations in E.
  apply map_eq_app in E as (x' & r & E & <- & E2). destruct r as [|ea r]; [easy|]. injection E2 as <- E2.
  apply map_eq_app in E2 as (y' & r' & -> & <- & E3). destruct r' as [|eb z']; [easy|]. injection E3 as <- _.
  assert (K : forall e h, In e (sorted_entries l) -> In h l -> ta_name (snd e) = fd_name h -> fst (fst (fst e)) = - fd_priority h).
  { intros e h He Hh Hn. assert (He' : In e (entries l)) by (eapply Permutation_in; [apply sort_perm | exact He]).
    unfold entries in He'. apply in_flat_map in He' as (h' & Hh' & He'). apply in_flat_map in He' as (m & _ & He').
    apply match_entries_spec in He' as ([Q _] & Q2 & _). rewrite Q2. do 2 f_equal.
    assert (N : fd_name h' = fd_name h) by congruence. clear - Hnd Hh Hh' N.
    induction l as [|k l IH]; [easy|]. cbn [map] in Hnd. inversion Hnd as [|? ? H1 H2]; subst.
    destruct Hh as [<-|Hh], Hh' as [<-|Hh']; auto; exfalso; apply H1; [rewrite <- N | rewrite N]; now apply in_map. }
  pose proof (C36_sorted l) as S. rewrite E in S.
  assert (B : goes_before ea eb).
  { clear - S. induction x' as [|c x' IH]; cbn [app] in S; inversion S as [|? ? S1 S2]; subst; [|auto].
    rewrite Forall_forall in S2. apply S2. apply in_or_app. right. now left. }
  assert (Ka : fst (fst (fst ea)) = - fd_priority f) by (apply K; [rewrite E; apply in_or_app; right; now left | exact Hf | exact Ha]).
  assert (Kb : fst (fst (fst eb)) = - fd_priority g) by (apply K; [rewrite E; apply in_or_app; right; right; apply in_or_app; right; now left | exact Hg | exact Hb]).
  destruct ea as [[[p e] i] t], eb as [[[p' e'] i'] t']. cbn [fst] in *. unfold goes_before in B. destruct B as [B|[B _]]; lia.
Qed.

Definition target_example : list field :=
  [mkField (u "title") 0 [mkMatch 5 [u "a"] []; mkMatch 2 [u "b"; u "long"] [u "x"]];
   mkField (u "doi") 10 [mkMatch 7 [u "d"] []];
   mkField (u "none") 0 [mkMatch 1 [] []]].
Example C36_example :
  NoDup (map fd_name target_example) /\
  target_annotations target_example =
    [mkTarget (u "doi") (VOne (u "d")); mkTarget (u "title") (VMany [u "long"; u "b"]);
     mkTarget (u "title") (VOne (u "x")); mkTarget (u "title") (VOne (u "a"))].
Proof. split; [repeat constructor; cbn; intuition discriminate | reflexivity]. Qed.
Example C35_example :
  strip_whitespace 100 (u "a" ++ [9%N; 32%N] ++ u "b" ++ [32%N; 13%N; 10%N; 9%N] ++ u "c") = Ok (u "a b" ++ [10%N] ++ u "c")
  /\ stripped_text ascii_space 100 ([10%N] ++ u " a  b ") = Ok (u "a b").
Proof. split; reflexivity. Qed.

(** * C58: values extracted with a regular expression *)
Section Extract.
Variable sp : N -> bool.
Definition visible_chars (s : str) : str := filter (fun c => negb (sp c)) s.
Definition inside (p : Z) (spans : list (Z * Z)) : bool := existsb (fun m => (fst m <=? p) && (p <? snd m)) spans.
Definition at_end (p : Z) (spans : list (Z * Z)) : bool := existsb (fun m => p =? snd m) spans.
(** the characters that are not white space, without those directly after a match (unless
    they belong to the next match) *)
Fixpoint kept_chars (spans : list (Z * Z)) (p : Z) (s : str) : str :=
  match s with
  | [] => []
  | c :: s' => (if negb (sp c) && (inside p spans || negb (at_end p spans)) then [c] else []) ++ kept_chars spans (p + 1) s'
  end.
(** matches in order, not overlapping, within the text *)
Fixpoint spans_ok (e len : Z) (spans : list (Z * Z)) : Prop :=
  match spans with [] => e <= len | m :: l => e <= fst m /\ fst m <= snd m /\ spans_ok (snd m) len l end.

Lemma visible_app a b : visible_chars (a ++ b) = visible_chars a ++ visible_chars b.
Proof. apply filter_app. Qed.
Lemma visible_space w : forallb sp w = true -> visible_chars w = [].
Proof.
  unfold visible_chars. induction w as [|c w IH]; [reflexivity|]. cbn [forallb filter]. intros H. apply andb_true_iff in H as [-> H]. cbn. auto.
Qed.
Lemma visible_strip s : visible_chars (strip sp s) = visible_chars s.
Proof.
  destruct (strip_spec sp s) as (w & w' & E & H1 & H2 & _). rewrite E at 2. rewrite !visible_app, (visible_space w H1), (visible_space w' H2).
  cbn. now rewrite app_nil_r.
Qed.
Lemma kept_app spans a : forall p b, kept_chars spans p (a ++ b) = kept_chars spans p a ++ kept_chars spans (p + slen a) b.
Proof.
  induction a as [|c a IH]; intros p b; cbn [app kept_chars].
  - unfold slen. cbn. now rewrite Z.add_0_r.
  - rewrite IH, <- app_assoc. do 2 f_equal. f_equal. unfold slen. cbn [length]. lia.
Qed.
Lemma kept_all spans s : forall p, (forall q, p <= q < p + slen s -> inside q spans = true \/ at_end q spans = false) ->
  kept_chars spans p s = visible_chars s.
Proof.
  induction s as [|c s IH]; intros p H; [reflexivity|]. cbn [kept_chars visible_chars filter]. fold (visible_chars s).
  rewrite IH; [|intros q Hq; apply H; unfold slen in *; cbn [length]; lia].
  destruct (H p) as [-> | ->]; [unfold slen; cbn [length]; lia | |]; cbn; rewrite ?orb_true_r, ?andb_true_r; destruct (sp c); reflexivity.
Qed.
Lemma spans_le l : forall e len, spans_ok e len l -> e <= len.
Proof. induction l as [|[x y] l IH]; intros e len H; [exact H|]. destruct H as (H1 & H2 & H3). cbn in *. specialize (IH _ _ H3). lia. Qed.
Lemma spans_bounds l : forall e len m, spans_ok e len l -> In m l -> e <= fst m <= snd m /\ snd m <= len.
Proof.
  induction l as [|[x y] l IH]; intros e len m H Hm; [easy|]. destruct H as (H1 & H2 & H3). cbn [fst snd] in *. pose proof (spans_le _ _ _ H3).
  destruct Hm as [<-|Hm]; cbn [fst snd]; [lia|]. specialize (IH _ _ _ H3 Hm). lia.
Qed.
Lemma slice_parts (s : str) i j : 0 <= i <= j -> j <= slen s -> firstn (Z.to_nat j) s = firstn (Z.to_nat i) s ++ py_slice s i j.
Proof.
  intros H1 H2. rewrite py_slice_pos by lia. rewrite <- (firstn_skipn (Z.to_nat i) (firstn (Z.to_nat j) s)) at 1.
  rewrite firstn_firstn, Nat.min_l by lia. f_equal. rewrite skipn_firstn_comm. f_equal; lia.
Qed.
Lemma slice_length (s : str) i j : 0 <= i <= j -> j <= slen s -> slen (py_slice s i j) = j - i.
Proof. intros. rewrite py_slice_pos by lia. unfold slen in *. rewrite firstn_length, skipn_length. lia. Qed.

Lemma kept_slice spans (s : str) i j : 0 <= i <= j -> j <= slen s ->
  kept_chars spans 0 (firstn (Z.to_nat j) s) = kept_chars spans 0 (firstn (Z.to_nat i) s) ++ kept_chars spans i (py_slice s i j).
Proof.
  intros H1 H2. rewrite (slice_parts s i j H1 H2), kept_app. do 2 f_equal. unfold slen in *. rewrite firstn_length. lia.
Qed.
(** [e] is the end of the last match; the character there is pending *)
Lemma extract_fold s spans done : forall todo r e start,
  spans = done ++ todo -> spans_ok e (slen s) todo -> 0 <= e ->
  (forall m, In m done -> snd m <= e) ->
  (start = 0 /\ e = 0 /\ done = [] \/ start = e + 1 /\ exists m, In m done /\ snd m = e) ->
  visible_chars (concat r) = kept_chars spans 0 (firstn (Z.to_nat e) s) ->
  let (r', start') := fold_left (extract_step sp s) todo (r, start) in
  visible_chars (concat (if start' <? slen s then r' ++ [strip sp (py_from s start')] else r')) = kept_chars spans 0 s.
Proof.
  intros todo; revert done. induction todo as [|[x y] todo IH]; intros done r e start ES Hok He Hd Hst Hr.
  - cbn [fold_left]. rewrite app_nil_r in ES. subst done. cbn [spans_ok] in Hok.
    assert (W : s = firstn (Z.to_nat (slen s)) s) by (unfold slen; rewrite Nat2Z.id, firstn_all; reflexivity).
    assert (NI : forall q, e < q -> inside q spans = false /\ at_end q spans = false).
    { intros q Hq. split; apply not_true_is_false; intros F; unfold inside, at_end in F; apply existsb_exists in F as (m & Hm & F);
        apply Hd in Hm; lia. }
    destruct (start <? slen s) eqn:L.
    + rewrite concat_app, visible_app. cbn [concat]. rewrite app_nil_r, visible_strip, Hr. rewrite W at 3.
      destruct Hst as [(-> & -> & ->)|(-> & m & Hm & Em)].
      * cbn [Z.to_nat firstn kept_chars app]. rewrite <- W. rewrite kept_all; [|intros; right; reflexivity].
        unfold py_from. rewrite py_slice_pos by lia. cbn [Z.to_nat skipn]. rewrite Z.sub_0_r, <- W || idtac.
        unfold slen. rewrite ?Nat.sub_0_r, Nat2Z.id, firstn_all. reflexivity.
      * rewrite (kept_slice spans s e (slen s)) by lia. f_equal. unfold py_from.
        assert (P : py_slice s e (slen s) = py_slice s e (e + 1) ++ py_slice s (e + 1) (slen s)).
        { pose proof (slice_parts s e (slen s) ltac:(lia) ltac:(lia)) as S1.
          rewrite (slice_parts s (e + 1) (slen s)), (slice_parts s e (e + 1)), <- app_assoc in S1 by lia. now apply app_inv_head in S1. }
        rewrite P, kept_app, slice_length by lia. replace (e + (e + 1 - e)) with (e + 1) by lia.
        rewrite (kept_all spans (py_slice s (e + 1) (slen s))).
        -- enough (kept_chars spans e (py_slice s e (e + 1)) = []) as -> by reflexivity.
           pose proof (slice_length s e (e + 1) ltac:(lia) ltac:(lia)) as L1. destruct (py_slice s e (e + 1)) as [|c [|d k]]; [reflexivity| |unfold slen in L1; cbn [length] in L1; lia].
           cbn [kept_chars]. replace (at_end e spans) with true. 2:{ symmetry. apply existsb_exists. exists m. split; [exact Hm | lia]. }
           replace (inside e spans) with false. 2:{ symmetry. apply not_true_is_false. intros F. apply existsb_exists in F as (m' & Hm' & F). apply Hd in Hm'. lia. }
           now rewrite andb_false_r.
        -- intros q Hq. right. apply NI. lia.
    + rewrite Hr. rewrite W at 2. rewrite (kept_slice spans s e (slen s)) by lia.
      enough (kept_chars spans e (py_slice s e (slen s)) = []) as -> by now rewrite app_nil_r.
      destruct Hst as [(-> & -> & ->)|(-> & m & Hm & Em)].
      * assert (slen s = 0) as -> by lia. reflexivity.
      * pose proof (slice_length s e (slen s) ltac:(lia) ltac:(lia)) as L1. destruct (py_slice s e (slen s)) as [|c [|d k]]; [reflexivity| |unfold slen in *; cbn [length] in L1; lia].
        cbn [kept_chars]. replace (at_end e spans) with true. 2:{ symmetry. apply existsb_exists. exists m. split; [exact Hm | lia]. }
        replace (inside e spans) with false. 2:{ symmetry. apply not_true_is_false. intros F. apply existsb_exists in F as (m' & Hm' & F). apply Hd in Hm'. lia. }
        now rewrite andb_false_r.
  - cbn [fold_left extract_step fst snd]. destruct Hok as (H1 & H2 & H3). cbn [fst snd] in H1, H2, H3. pose proof (spans_le _ _ _ H3) as H4.
    apply (IH (done ++ [(x, y)]) _ y (y + 1)).
    + now rewrite <- app_assoc.
    + exact H3.
    + lia.
    + intros m Hm. apply in_app_or in Hm as [Hm|[<-|[]]]; [specialize (Hd _ Hm); lia | cbn; lia].
    + right. split; [reflexivity|]. exists (x, y). split; [apply in_or_app; right; now left | reflexivity].
    + rewrite !concat_app, !visible_app, Hr. cbn [concat]. rewrite app_nil_r.
      rewrite (kept_slice spans s e y) by lia. f_equal.
      assert (P : py_slice s e y = py_slice s e x ++ py_slice s x y).
      { pose proof (slice_parts s e y ltac:(lia) ltac:(lia)) as S1.
        rewrite (slice_parts s x y), (slice_parts s e x), <- app_assoc in S1 by lia. now apply app_inv_head in S1. }
      rewrite P, kept_app, slice_length by lia. replace (e + (x - e)) with x by lia.
      rewrite (kept_all spans (py_slice s x y)).
      2:{ intros q Hq. rewrite slice_length in Hq by lia. left. apply existsb_exists. exists (x, y). split; [|cbn; lia].
          rewrite ES. apply in_or_app. right. now left. }
      f_equal.
      assert (NI : forall q, e < q < x -> inside q spans = false /\ at_end q spans = false).
      { intros q Hq. split; apply not_true_is_false; intros F; unfold inside, at_end in F; apply existsb_exists in F as (m & Hm & F);
          rewrite ES in Hm; apply in_app_or in Hm as [Hm|[<-|Hm]];
          (apply Hd in Hm; lia) || (cbn [fst snd] in F; lia) || (pose proof (spans_bounds _ _ _ _ H3 Hm); lia). }
      destruct Hst as [(-> & -> & ->)|(-> & m & Hm & Em)].
      * destruct (0 <? x) eqn:X.
        -- cbn [concat]. rewrite app_nil_r, visible_strip. rewrite kept_all; [reflexivity|].
           intros q Hq. right. rewrite slice_length in Hq by lia. apply not_true_is_false. intros F. apply existsb_exists in F as (m & Hm & F).
           rewrite ES in Hm. cbn [app] in Hm. destruct Hm as [<-|Hm]; [cbn [fst snd] in F; lia | pose proof (spans_bounds _ _ _ _ H3 Hm); lia].
        -- assert (x = 0) as -> by lia. reflexivity.
      * destruct (e + 1 <? x) eqn:X.
        -- assert (P2 : py_slice s e x = py_slice s e (e + 1) ++ py_slice s (e + 1) x).
           { pose proof (slice_parts s e x ltac:(lia) ltac:(lia)) as S1.
             rewrite (slice_parts s (e + 1) x), (slice_parts s e (e + 1)), <- app_assoc in S1 by lia. now apply app_inv_head in S1. }
           rewrite P2, kept_app, slice_length by lia. replace (e + (e + 1 - e)) with (e + 1) by lia.
           rewrite (kept_all spans (py_slice s (e + 1) x)).
           ++ cbn [concat]. rewrite app_nil_r, visible_strip.
              enough (kept_chars spans e (py_slice s e (e + 1)) = []) as -> by reflexivity.
              pose proof (slice_length s e (e + 1) ltac:(lia) ltac:(lia)) as L1. destruct (py_slice s e (e + 1)) as [|c [|d k]]; [reflexivity| |unfold slen in L1; cbn [length] in L1; lia].
              cbn [kept_chars]. replace (at_end e spans) with true. 2:{ symmetry. apply existsb_exists. exists m. split; [rewrite ES; apply in_or_app; now left | lia]. }
              replace (inside e spans) with false; [now rewrite andb_false_r|].
              symmetry. apply not_true_is_false. intros F. apply existsb_exists in F as (m' & Hm' & F).
              rewrite ES in Hm'; apply in_app_or in Hm' as [Hm'|[<-|Hm']];
                (apply Hd in Hm'; lia) || (cbn [fst snd] in F; lia) || (pose proof (spans_bounds _ _ _ _ H3 Hm'); lia).
           ++ intros q Hq. right. rewrite slice_length in Hq by lia. apply NI. lia.
        -- destruct (Z.eq_dec x e) as [->|Hx].
           ++ cbn [concat]. rewrite py_slice_pos by lia. rewrite Nat.sub_diag || idtac. replace (Z.to_nat e - Z.to_nat e)%nat with O by lia. reflexivity.
           ++ assert (x = e + 1) as -> by lia. cbn [concat].
              pose proof (slice_length s e (e + 1) ltac:(lia) ltac:(lia)) as L1. destruct (py_slice s e (e + 1)) as [|c [|d k]]; [reflexivity| |unfold slen in L1; cbn [length] in L1; lia].
              cbn [kept_chars]. replace (at_end e spans) with true. 2:{ symmetry. apply existsb_exists. exists m. split; [rewrite ES; apply in_or_app; now left | lia]. }
              replace (inside e spans) with false; [now rewrite andb_false_r|].
              symmetry. apply not_true_is_false. intros F. apply existsb_exists in F as (m' & Hm' & F).
              rewrite ES in Hm'; apply in_app_or in Hm' as [Hm'|[<-|Hm']];
                (apply Hd in Hm'; lia) || (cbn [fst snd] in F; lia) || (pose proof (spans_bounds _ _ _ _ H3 Hm'); lia).
Qed.

(** The pieces hold exactly the kept characters. *)
Theorem C58_kept s spans : spans_ok 0 (slen s) spans ->
  visible_chars (concat (extract_pieces sp s spans)) = kept_chars spans 0 s.
Proof.
  intros H. unfold extract_pieces. pose proof (extract_fold s spans [] spans [] 0 0 eq_refl H ltac:(lia) ltac:(easy) ltac:(left; auto) eq_refl) as G.
  destruct (fold_left _ _ _) as [r start]. destruct (start <? slen s); exact G.
Qed.
(** Nothing visible is lost when every match is followed by white space, the end or the
    next match. *)
Theorem C58_nothing_lost_partial s spans : spans_ok 0 (slen s) spans ->
  (forall m c, In m spans -> nth_error s (Z.to_nat (snd m)) = Some c -> sp c = true \/ inside (snd m) spans = true) ->
  visible_chars (concat (extract_pieces sp s spans)) = visible_chars s.
Proof.
  intros H Hs. rewrite C58_kept by exact H. assert (N0 : forall m, In m spans -> 0 <= snd m) by (intros m Hm; pose proof (spans_bounds _ _ _ _ H Hm); lia).
  assert (G : forall p t, 0 <= p -> (forall m c, In m spans -> p <= snd m -> nth_error t (Z.to_nat (snd m - p)) = Some c -> sp c = true \/ inside (snd m) spans = true) ->
    kept_chars spans p t = visible_chars t).
  { clear H Hs. intros p t; revert p. induction t as [|c t IH]; intros p Hp G; [reflexivity|]. cbn [kept_chars visible_chars filter]. fold (visible_chars t).
    rewrite IH; [|lia|].
    - destruct (sp c) eqn:E; [reflexivity|]. cbn [negb andb]. destruct (at_end p spans) eqn:A; [|now rewrite orb_true_r].
      apply existsb_exists in A as (m & Hm & A). apply Z.eqb_eq in A. destruct (G m c Hm ltac:(lia)) as [F|F]; [|congruence|].
      + replace (snd m - p) with 0 by lia. reflexivity.
      + rewrite A, F. reflexivity.
    - intros m d Hm Hle Hn. apply (G m d Hm ltac:(lia)). replace (Z.to_nat (snd m - p)) with (S (Z.to_nat (snd m - (p + 1)))) by lia. exact Hn. }
  apply G; [lia|]. intros m c Hm _ Hn. apply (Hs m c Hm). now rewrite Z.sub_0_r in Hn.
Qed.
(** The values always include the matched texts, and the full text unless there is a
    single piece. *)
Theorem C58_values s spans m : In m spans -> 
  match extract_using_regex sp s spans with
  | One r => r = py_slice s (fst m) (snd m) /\ spans = [m]
  | Many l => In (py_slice s (fst m) (snd m)) l /\ (exists l', l = l' ++ [s] /\ l' = extract_pieces sp s spans)
  end.
Proof.
  intros Hm.
  assert (I : forall todo r start, (forall t, In t r \/ (exists m, In m todo /\ t = py_slice s (fst m) (snd m)) ->
      In t (fst (fold_left (extract_step sp s) todo (r, start))))
    /\ (length todo + length r <= length (fst (fold_left (extract_step sp s) todo (r, start))))%nat).
  { clear. induction todo as [|[x y] todo IH]; intros r start; cbn [fold_left extract_step].
    - split; [|cbn [fst length]; apply Nat.le_refl]. intros t [H|(m & [] & _)]. exact H.
    - cbn [fst snd]. match goal with |- context [fold_left _ _ (?r', ?st)] => destruct (IH r' st) as [I1 I2] end. split.
      + intros t [H|(m & [<-|Hm] & ->)]; apply I1.
        * left. apply in_or_app. now left.
        * left. apply in_or_app. right. apply in_or_app. right. now left.
        * right. now exists m.
      + rewrite !app_length in I2. cbn [length] in *. unfold str in *. lia. }
  specialize (I spans [] 0). destruct I as [I1 I2].
  assert (P : forall t, In t (fst (fold_left (extract_step sp s) spans ([], 0))) -> In t (extract_pieces sp s spans)).
  { intros t Ht. unfold extract_pieces. destruct (fold_left _ _ _) as [r st]. cbn [fst] in Ht. destruct (st <? slen s); [apply in_or_app; now left | exact Ht]. }
  assert (L : (length spans <= length (extract_pieces sp s spans))%nat).
  { unfold extract_pieces. destruct (fold_left _ _ _) as [r st]. cbn [fst length] in I2. destruct (st <? slen s); [rewrite app_length|]; lia. }
  assert (M : In (py_slice s (fst m) (snd m)) (extract_pieces sp s spans)) by (apply P, I1; right; now exists m).
  unfold extract_using_regex. destruct spans as [|x spans]; [easy|]. destruct (extract_pieces sp s (x :: spans)) as [|r [|r' k]] eqn:E; [easy| |].
  - split; [destruct M as [M|[]]; now rewrite M|]. cbn [length] in L. destruct spans; [|cbn in L; lia]. destruct Hm as [->|[]]; reflexivity.
  - split; [apply in_or_app; now left|]. eexists. split; reflexivity.
Qed.
End Extract.
(** a visible character directly after a match is in none of the pieces *)
Theorem C58_char_lost_refuted : exists s spans, spans_ok 0 (slen s) spans
  /\ visible_chars ascii_space (concat (extract_pieces ascii_space s spans)) <> visible_chars ascii_space s.
Proof. exists (u "12ab"), [(0, 2)]. split; [vm_compute; intuition discriminate | vm_compute; discriminate]. Qed.
Example C58_example :
  spans_ok 0 (slen (u "vol 12 (3)")) [(4, 6)]
  /\ (forall m c, In m [(4, 6)] -> nth_error (u "vol 12 (3)") (Z.to_nat (snd m)) = Some c -> ascii_space c = true \/ inside (snd m) [(4, 6)] = true)
  /\ extract_using_regex ascii_space (u "vol 12 (3)") [(4, 6)] = Many [u "vol"; u "12"; u "(3)"; u "vol 12 (3)"].
Proof.
  split; [cbn; lia|]. split; [|reflexivity]. intros m c [<-|[]]. vm_compute. intros [= <-]. now left.
Qed.

(** * C59: joining the texts of an element *)
Section Raw.
Variable wd : N -> bool.
Hypothesis wd_lf : wd ch_lf = false.
(** one space exactly between a text ending with a word character and a text starting
    with one *)
Fixpoint joined (prev : option str) (l : list str) : str :=
  match l with
  | [] => []
  | t :: l' =>
      (match prev, t with
       | Some p, c :: _ => match rev p with d :: _ => if wd d && wd c then [32%N] else [] | [] => [] end
       | _, _ => []
       end) ++ t ++ joined (Some t) l'
  end.
Definition one_line (s : str) : Prop := ~ In ch_lf s.
Lemma ends_with_word_one_line s : one_line s -> ends_with_word wd s = match rev s with d :: _ => wd d | [] => false end.
Proof.
  intros H. unfold ends_with_word. assert (F : forall t, (forall c, In c t -> In c s) -> forallb (fun c => negb (N.eqb c ch_lf)) t = true).
  { intros t Ht. apply forallb_forall. intros c Hc. apply negb_true_iff, N.eqb_neq. intros ->. apply H, Ht, Hc. }
  destruct (rev s) as [|d k] eqn:E; [reflexivity|].
  assert (S : s = rev k ++ [d]) by (apply (f_equal (@rev N)) in E; rewrite rev_involutive in E; exact E).
  rewrite F; [|rewrite S, removelast_last; intros c Hc; apply in_or_app; now left]. rewrite andb_true_r.
  replace (N.eqb d ch_lf) with false; [now rewrite orb_false_r|]. symmetry. apply N.eqb_neq. intros ->. apply H. rewrite S. apply in_or_app. right. now left.
Qed.
Theorem C59_spaces_partial l : (forall t, In t l -> one_line t) -> raw_text wd l = joined None l.
Proof.
  intros H. unfold raw_text. assert (G : forall l prev, (forall t, In t l -> one_line t) -> (forall p, prev = Some p -> one_line p) -> raw_text_go wd prev l = joined prev l).
  { clear l H. induction l as [|t l IH]; intros prev Hl Hp; [reflexivity|]. cbn [raw_text_go joined].
    rewrite IH; [|intros; apply Hl; now right|intros p [= <-]; apply Hl; now left]. f_equal.
    destruct prev as [p|]; [|reflexivity]. rewrite ends_with_word_one_line by (now apply Hp). unfold starts_with_word.
    destruct t as [|c t], (rev p) as [|d k]; rewrite ?andb_false_r; reflexivity. }
  apply G; [exact H | easy].
Qed.
(** whatever the texts, at most spaces are added, and only between texts *)
Theorem C59_text l : exists seps, length seps = length l /\ (forall x, In x seps -> x = [] \/ x = [32%N])
  /\ raw_text wd l = concat (map (fun xt => fst xt ++ snd xt) (combine seps l)).
Proof.
  unfold raw_text. generalize (@None str). induction l as [|t l IH]; intros prev; [exists []; easy|].
  destruct (IH (Some t)) as (seps & L & H & E). cbn [raw_text_go]. rewrite E.
  match goal with |- context [(if ?b then _ else _) ++ _] => exists ((if b then [32%N] else []) :: seps); destruct b end;
    (split; [cbn; now rewrite L|]; split; [intros x [<-|Hx]; auto | cbn [combine map concat fst snd app]; rewrite ?app_assoc; reflexivity]).
Qed.
End Raw.
(** a text of more than one line is not recognised as ending with a word *)
Theorem C59_lines_refuted : exists l, raw_text ascii_word l <> joined ascii_word None l.
Proof. exists [u "a" ++ [10%N] ++ u "b"; u "c"]. vm_compute. discriminate. Qed.
Example C59_example : (forall t, In t [u "Jane"; u "Doe"; u "."] -> one_line t) /\ ascii_word ch_lf = false
  /\ raw_text ascii_word [u "Jane"; u "Doe"; u "."] = u "Jane Doe.".
Proof. split; [|split; reflexivity]. unfold one_line. cbn. intuition; subst; cbn in *; intuition discriminate. Qed.

(** * C60: texts without the ignored children *)
Section NodeInd.
Variable P : node -> Prop.
Hypothesis HE : forall text cs tail, Forall P cs -> P (El text cs tail).
Hypothesis HC : forall text tail, P (Cm text tail).
Fixpoint node_ind' (n : node) : P n :=
  match n with
  | El text cs tail => HE text cs tail ((fix go (l : list node) : Forall P l :=
      match l with [] => Forall_nil P | c :: l' => Forall_cons c (node_ind' c) (go l') end) cs)
  | Cm text tail => HC text tail
  end.
End NodeInd.
(** the document with the ignored nodes emptied (their tail stays) *)
Fixpoint emptied (excl : list nat -> bool) (path : list nat) (n : node) : node :=
  match n with
  | El text cs tail =>
      El text ((fix go (i : nat) (l : list node) : list node :=
        match l with
        | [] => []
        | c :: l' => (if excl (path ++ [i]) then El [] [] (ntail c) else emptied excl (path ++ [i]) c) :: go (S i) l'
        end) O cs) tail
  | Cm text tail => Cm text tail
  end.
Fixpoint comment_free (n : node) : bool := match n with El _ cs _ => forallb comment_free cs | Cm _ _ => false end.
Theorem C60_ignored_partial excl n : comment_free (emptied excl [] n) = true ->
  text_content_and_exclude excl false n = itertext (emptied excl [] n).
Proof.
  unfold text_content_and_exclude. generalize (@nil nat). induction n as [text cs tail IH|text tail] using node_ind'; intros path H; [|discriminate].
  cbn [emptied text_and_exclude itertext comment_free] in *. f_equal. revert H. generalize O.
  induction IH as [|c cs Hc _ IHcs]; intros i H; [reflexivity|]. cbn [flat_map forallb] in *. apply andb_true_iff in H as [H1 H2].
  rewrite <- (IHcs (S i) H2). destruct (excl (path ++ [i])) eqn:X.
  - cbn [itertext some_text flat_map ntail app]. reflexivity.
  - rewrite <- (Hc _ H1), <- app_assoc. f_equal. f_equal. destruct c; reflexivity.
Qed.
(** With something to ignore, the text of every comment becomes part of the value. *)
Theorem C60_comment_refuted : exists excl n, text_content_and_exclude excl false n <> itertext (emptied excl [] n).
Proof.
  exists (fun p => match p with [1%nat] => true | _ => false end),
    (El (u "a") [Cm (u "note") (u "b"); El (u "x") [] (u "c")] []).
  vm_compute. discriminate.
Qed.
Example C60_example :
  let excl := fun p : list nat => match p with [1%nat] => true | _ => false end in
  let n := El (u "a") [El (u "b") [] []; El (u "x") [El (u "y") [] []] (u "c")] [] in
  comment_free (emptied excl [] n) = true /\ text_content_and_exclude excl false n = [u "a"; u "b"; u "c"].
Proof. split; reflexivity. Qed.

(** * C61: when an element holds text of its own *)
Section RawText.
Variable sp : N -> bool.
(** the text content without the texts of childless descendants *)
Fixpoint own_text (n : node) : str :=
  match n with
  | El text cs _ => text ++ flat_map (fun c => (if leaf c then [] else own_text c) ++ ntail c) cs
  | Cm _ _ => []
  end.
Theorem C61_contains_raw_text n : contains_raw_text sp n = true <-> exists c, In c (own_text n) /\ sp c = false.
Proof.
  assert (B : forall s, negb (blank sp s) = true <-> exists c, In c s /\ sp c = false).
  { intros s. unfold blank. rewrite negb_true_iff. split.
    - induction s as [|c s IH]; [easy|]. cbn [forallb]. destruct (sp c) eqn:E; cbn [andb].
      + intros H. destruct (IH H) as (d & Hd & F). exists d. split; [now right | exact F].
      + intros _. exists c. split; [now left | exact E].
    - intros (c & Hc & F). apply not_true_is_false. intros G. rewrite forallb_forall in G. rewrite (G c Hc) in F. easy. }
  induction n as [text cs tail IH|text tail] using node_ind'.
  - cbn [contains_raw_text own_text]. rewrite orb_true_iff, B, existsb_exists. rewrite Forall_forall in IH. split.
    + intros [(c & Hc & F)|(d & Hd & G)].
      * exists c. split; [apply in_or_app; now left | exact F].
      * apply orb_true_iff in G as [G|G].
        -- apply B in G as (c & Hc & F). exists c. split; [|exact F]. apply in_or_app. right. apply in_flat_map. exists d. split; [exact Hd|]. apply in_or_app. now right.
        -- apply andb_true_iff in G as [G1 G2]. apply (IH d Hd) in G2 as (c & Hc & F). exists c. split; [|exact F].
           apply in_or_app. right. apply in_flat_map. exists d. split; [exact Hd|]. apply in_or_app. left. apply negb_true_iff in G1. now rewrite G1.
    + intros (c & Hc & F). apply in_app_or in Hc as [Hc|Hc]; [left; now exists c|]. right. apply in_flat_map in Hc as (d & Hd & Hc). exists d. split; [exact Hd|].
      apply orb_true_iff. apply in_app_or in Hc as [Hc|Hc]; [right | left; apply B; now exists c].
      destruct (leaf d); [easy|]. cbn [negb andb]. apply (IH d Hd). now exists c.
  - split; [discriminate | intros (c & [] & _)].
Qed.
End RawText.
Example C61_example :
  contains_raw_text ascii_space (El (u " ") [El (u "a") [] (u " "); El (u " ") [El (u "b") [] (u ",")] []] []) = true
  /\ contains_raw_text ascii_space (El (u " ") [El (u "a") [] (u " "); El (u " ") [El (u "b") [] []] []] []) = false.
Proof. split; reflexivity. Qed.

Print Assumptions C35_normal.
Print Assumptions C35_shape.
Print Assumptions C35_stripped.
Print Assumptions C36_nothing_lost.
Print Assumptions C36_sorted.
Print Assumptions C36_stable.
Print Assumptions C36_priority.
Print Assumptions C58_kept.
Print Assumptions C58_nothing_lost_partial.
Print Assumptions C58_values.
Print Assumptions C59_spaces_partial.
Print Assumptions C59_text.
Print Assumptions C60_ignored_partial.
Print Assumptions C61_contains_raw_text.
