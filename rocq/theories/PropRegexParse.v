(** Reading patterns that contain [re.escape] of a text *)
From Verif Require Import Base ModelJoined ModelRegex PropRegex PropRegexRun.
Open Scope nat_scope.

(** the characters of [v] one after another, then [b] *)
Definition lits (v : str) (b : re) : re := fold_right (fun c b => RSeq (RLit c) b) b v.

Lemma special_in c : special c = true <-> In c (u "()[]{}?*+-|^$\.&~# " ++ [9; 10; 13; 11; 12]%N).
Proof.
  unfold special. rewrite existsb_exists. split; [intros (x & Hx & E); apply N.eqb_eq in E; now subst|]. intros H. exists c. now rewrite N.eqb_refl.
Qed.
Lemma not_special c x : special c = false -> special x = true -> N.eqb c x = false.
Proof. intros H1 H2. apply N.eqb_neq. intros ->. congruence. Qed.
Lemma bounds_none c s : special c = false \/ c = 92%N -> parse_bounds (c :: s) = None.
Proof.
  intros H. assert (K : c <> 42%N /\ c <> 43%N /\ c <> 63%N /\ c <> 123%N).
  { destruct H as [H|H]; [|subst; repeat split; discriminate]. repeat split; intros ->; discriminate. }
  destruct K as (K1 & K2 & K3 & K4). unfold parse_bounds.
  repeat (match goal with |- match ?x with _ => _ end = None => is_var x; destruct x; try reflexivity; try contradiction end).
Qed.
Lemma escaped_atom c f n s : special c = true -> parse_atom (S f) n (92%N :: c :: s) = Parsed (RLit c, n, s).
Proof.
  intros H. apply special_in in H. cbn [parse_atom N.eqb Pos.eqb].
  assert (E : parse_escape c = Parsed (RLit c)) by (vm_compute in H; repeat (destruct H as [<-|H]; [reflexivity|]); destruct H).
  now rewrite E.
Qed.
Lemma plain_atom c f n s : special c = false -> parse_atom (S f) n (c :: s) = Parsed (RLit c, n, s).
Proof.
  intros H. cbn [parse_atom].
  rewrite (not_special c 40), (not_special c 91), (not_special c 46), (not_special c 94), (not_special c 36), (not_special c 92) by (auto; reflexivity).
  rewrite bounds_none by auto. reflexivity.
Qed.
Lemma escape_bounds v s : parse_bounds s = None -> parse_bounds (re_escape v ++ s) = None.
Proof.
  intros H. destruct v as [|c v]; [exact H|]. cbn [re_escape flat_map]. destruct (special c) eqn:E; cbn [app]; apply bounds_none; auto.
Qed.
(** [re.escape] stands for the text itself *)
Lemma parse_escaped rest n f : parse_bounds rest = None -> forall v,
  parse_seq (length v + S f) n (re_escape v ++ rest) = (pdo (b, n2, r2) <- parse_seq (S f) n rest ;; Parsed (lits v b, n2, r2)).
Proof.
  intros H. induction v as [|c v IH].
  - cbn [length re_escape flat_map app lits fold_right plus]. destruct (parse_seq (S f) n rest) as [[[b n2] r2]| |]; reflexivity.
  - cbn [length plus]. cbn [re_escape flat_map]. fold (re_escape v). rewrite <- app_assoc.
    assert (B := escape_bounds v rest H). assert (A : parse_seq (S (length v + S f)) n ((if special c then [92%N; c] else [c]) ++ re_escape v ++ rest) =
      (pdo (b, n2, r2) <- parse_seq (length v + S f) n (re_escape v ++ rest) ;; Parsed (RSeq (RLit c) b, n2, r2))).
    { destruct (special c) eqn:E.
      - cbn [app parse_seq N.eqb Pos.eqb orb]. rewrite Nat.add_succ_r, escaped_atom by exact E. cbn [pbind]. unfold parse_repeat. rewrite B. reflexivity.
      - cbn [app parse_seq]. rewrite (not_special c 124), (not_special c 41) by (auto; reflexivity). cbn [orb]. rewrite Nat.add_succ_r, plain_atom by exact E. cbn [pbind]. unfold parse_repeat. rewrite B. reflexivity. }
    rewrite A, IH. destruct (parse_seq (S f) n rest) as [[[b n2] r2]| |]; reflexivity.
Qed.
Lemma re_escape_length v : length v <= length (re_escape v).
Proof. induction v as [|c v IH]; [auto|]. change (re_escape (c :: v)) with ((if special c then [92%N; c] else [c]) ++ re_escape v). rewrite app_length. destruct (special c); cbn; lia. Qed.

(** what [lits] reads *)
Section Lits.
Variables sp wd dg : N -> bool.
Variable fold : N -> N.
Variable ic : bool.
Notation reads := (reads sp wd dg fold ic).
Lemma reads_lits v b : forall p i w q g, reads (lits v b) p i w q g <->
  exists w1 w2, w = w1 ++ w2 /\ Forall2 (same_char fold ic) w1 v /\ reads b (after p w1) (i + length w1) w2 q g.
Proof.
  induction v as [|c v IH]; intros p i w q g; cbn [lits fold_right].
  - split.
    + intros R. exists [], w. cbn. rewrite Nat.add_0_r. repeat split; auto.
    + intros (w1 & w2 & -> & F & R). inversion F; subst. cbn in R. now rewrite Nat.add_0_r in R.
  - fold (lits v b). rewrite reads_seq. split.
    + intros (w1 & w2 & g1 & g2 & -> & -> & R1 & R2). apply reads_char in R1 as (x & -> & -> & Hx). apply in_lit in Hx.
      apply IH in R2 as (w3 & w4 & -> & F & R). exists (x :: w3), w4. rewrite app_nil_r. split; [reflexivity|]. split; [now constructor|].
      cbn [after fold_left length] in *. now rewrite <- Nat.add_assoc in R.
    + intros (w1 & w2 & -> & F & R). inversion F as [|x c' w1' v' Hx F']; subst. exists [x], (w1' ++ w2), [], g. rewrite app_nil_r. repeat split.
      * apply reads_char. exists x. repeat split. now apply in_lit.
      * apply IH. exists w1', w2. split; [reflexivity|]. split; [exact F'|]. cbn [after fold_left length] in *. now rewrite <- Nat.add_assoc.
Qed.
End Lits.

(** *** The steps of reading *)
Lemma seq_step f n c s a n1 r a' r1 b n2 r2 : N.eqb c 124 || N.eqb c 41 = false ->
  parse_atom f n (c :: s) = Parsed (a, n1, r) -> parse_repeat a r = Parsed (a', r1) -> parse_seq f n1 r1 = Parsed (b, n2, r2) ->
  parse_seq (S f) n (c :: s) = Parsed (RSeq a' b, n2, r2).
Proof. intros H1 H2 H3 H4. cbn [parse_seq]. rewrite H1, H2. cbn [pbind]. rewrite H3. cbn [pbind]. now rewrite H4. Qed.
Lemma seq_end f n s : hd_error s = None \/ hd_error s = Some 124%N \/ hd_error s = Some 41%N -> parse_seq (S f) n s = Parsed (REmpty, n, s).
Proof. destruct s as [|c s]; [reflexivity|]. cbn. intros [H|[[= ->]|[= ->]]]; [discriminate|reflexivity|reflexivity]. Qed.
Lemma not_head {A} (x y : A) (r s : str) (c : N) : hd_error r <> Some c ->
  (match r with [] => x | d :: _ => if N.eqb d c then y else x end) = x.
Proof. destruct r as [|d r]; [reflexivity|]. cbn. intros H. destruct (N.eqb d c) eqn:E; [|reflexivity]. apply N.eqb_eq in E. now subst. Qed.
Lemma alt_one f n s a n1 r : parse_seq f n s = Parsed (a, n1, r) -> hd_error r <> Some 124%N -> parse_alt (S f) n s = Parsed (a, n1, r).
Proof.
  intros H1 H2. cbn [parse_alt]. rewrite H1. cbn [pbind]. destruct r as [|c r]; [reflexivity|]. cbn in H2.
  repeat (match goal with |- match ?x with _ => _ end = _ => is_var x; destruct x; try reflexivity end); now destruct H2.
Qed.
Lemma alt_more f n s a n1 r1 b n2 r2 : parse_seq f n s = Parsed (a, n1, 124%N :: r1) -> parse_alt f n1 r1 = Parsed (b, n2, r2) -> parse_alt (S f) n s = Parsed (RAlt a b, n2, r2).
Proof. intros H1 H2. cbn [parse_alt]. rewrite H1. cbn [pbind]. now rewrite H2. Qed.
Lemma atom_group f n r a n1 r3 : hd_error r <> Some 63%N -> parse_alt f (S n) r = Parsed (a, n1, 41%N :: r3) -> parse_atom (S f) n (40%N :: r) = Parsed (RGroup (S n) a, n1, r3).
Proof.
  intros H1 H2. cbn [parse_atom N.eqb Pos.eqb]. rewrite H2. cbn [pbind]. destruct r as [|c r]; [reflexivity|]. cbn in H1.
  repeat (match goal with |- match ?x with _ => _ end = _ => is_var x; destruct x; try reflexivity end); now destruct H1.
Qed.
Lemma atom_shy f n r a n1 r3 : parse_alt f n r = Parsed (a, n1, 41%N :: r3) -> parse_atom (S f) n (40%N :: 63%N :: 58%N :: r) = Parsed (a, n1, r3).
Proof. intros H. cbn [parse_atom N.eqb Pos.eqb]. now rewrite H. Qed.
Lemma repeat_none a r : parse_bounds r = None -> parse_repeat a r = Parsed (a, r).
Proof. intros H. unfold parse_repeat. now rewrite H. Qed.
Lemma escape_head v r c : special c = true -> c <> 92%N -> hd_error r <> Some c -> hd_error (re_escape v ++ r) <> Some c.
Proof.
  intros H1 H2 H3. destruct v as [|x v]; [exact H3|]. cbn [re_escape flat_map]. destruct (special x) eqn:E; cbn; intros [= K]; congruence.
Qed.
