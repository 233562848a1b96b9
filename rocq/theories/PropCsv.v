(** C132: the files of match details *)
From Verif Require Import Base ModelTags ModelTei ModelTeiDoc ModelJoined ModelFuzzyMatch ModelMatch ModelReport ModelCsv.
Open Scope list_scope.

(* ---------------------------------------------------------------- *)
(** ** Specification: how a file of separated values is read (RFC 4180, any delimiter) *)
Section Grammar.
Variable delim : N.
Definition bare (c : N) : Prop := c <> delim /\ c <> 34%N /\ c <> 13%N /\ c <> 10%N.
(** between quotes: two quotes stand for one *)
Inductive inside : str -> str -> Prop :=
| in_nil : inside [] []
| in_char c x s : c <> 34%N -> inside x s -> inside (c :: x) (c :: s)
| in_quote x s : inside x s -> inside (34%N :: 34%N :: x) (34%N :: s).
Inductive field : str -> str -> Prop :=
| f_bare s : Forall bare s -> field s s
| f_quoted x s : inside x s -> field (34%N :: x ++ [34%N]) s.
Inductive fields : str -> list str -> Prop :=
| fs_one x s : field x s -> fields x [s]
| fs_more x s y l : field x s -> fields y l -> fields (x ++ delim :: y) (s :: l).
Inductive file : str -> list (list str) -> Prop :=
| fi_end : file [] []
| fi_line x r y rs : x <> [] -> fields x r -> file y rs -> file (x ++ 13%N :: 10%N :: y) (r :: rs).
End Grammar.
(** a number in decimal digits, without leading zeros *)
Definition decimal (s : str) (n : N) : Prop :=
  s <> [] /\ Forall (fun c => (48 <= c <= 57)%N) s /\ (hd 0%N s = 48%N -> s = [48%N]) /\
  fold_left (fun a c => (10 * a + (c - 48))%N) s 0%N = n.
Definition text_of (o : ostr) : str := match o with Some s => s | None => [] end.
(** a row of the file as it should be: the number of the row in the column of that name, the reported texts in the others *)
Definition row_shown (columns : list str) (k : nat) (row : list (str * ostr)) (cells : list str) : Prop :=
  Forall2 (fun c x => if streq c (u "id") then decimal x (N.of_nat (S k))
                      else x = text_of (match dict_get c row with Some o => o | None => None end)) columns cells.

(* ---------------------------------------------------------------- *)
(** ** Numbers *)
Lemma digits_ok f : forall n, (N.to_nat n < f)%nat -> decimal (digits f n) n.
Proof.
  induction f as [|f IH]; intros n H; [lia|]. cbn [digits]. destruct (N.ltb_spec n 10) as [L|L].
  - cbn [app]. rewrite N.mod_small by exact L. split; [discriminate|]. split; [constructor; [lia|constructor]|].
    split; [cbn [hd]; intros ->; reflexivity|]. cbn [fold_left]. lia.
  - assert (Hd : (n / 10 < n)%N) by (apply N.div_lt; lia).
    destruct (IH (n / 10)%N) as (A & B & C & E); [lia|].
    assert (M : (n mod 10 < 10)%N) by (apply N.mod_lt; discriminate).
    split; [intros X; now apply app_eq_nil in X as [_ X]|]. split; [apply Forall_app; split; [exact B|constructor; [|constructor]; generalize dependent (n mod 10)%N; clear; intros m M; lia]|].
    split.
    + destruct (digits f (n / 10)) as [|c s]; [congruence|]. cbn [app hd]. intros ->. specialize (C eq_refl). injection C as ->.
      change (0 = n / 10)%N in E. exfalso. assert (K : (1 <= n / 10)%N) by (apply (N.div_le_lower_bound n 10 1); [discriminate|exact L]). rewrite <- E in K. now apply K.
    + rewrite fold_left_app, E. cbn [fold_left]. rewrite (N.div_mod' n 10) at 3. f_equal. generalize (n mod 10)%N. clear. intros m. lia.
Qed.
Lemma show_z_ok n : decimal (show_z (Z.of_nat (S n))) (N.of_nat (S n)).
Proof.
  unfold show_z. destruct (Z.of_nat (S n) <? 0)%Z eqn:E; [apply Z.ltb_lt in E; lia|]. cbn [app].
  replace (Z.abs_N (Z.of_nat (S n))) with (N.of_nat (S n)) by lia. apply digits_ok. lia.
Qed.

(* ---------------------------------------------------------------- *)
(** ** Writing *)
Section Write.
Variable delim : N.
Hypothesis Hd : delim <> 34%N /\ delim <> 13%N /\ delim <> 10%N.
Lemma quoted_inside s : inside (flat_map (fun c => if N.eqb c quote then [quote; quote] else [c]) s) s.
Proof.
  induction s as [|c s IH]; [constructor|]. cbn [flat_map]. destruct (N.eqb_spec c quote) as [->|N].
  - apply in_quote. exact IH.
  - apply in_char; [exact N|exact IH].
Qed.
Lemma field_ok s : field delim (field_text delim s) s.
Proof.
  unfold field_text. destruct (existsb (needs_quotes delim) s) eqn:E.
  - apply f_quoted. apply quoted_inside.
  - apply f_bare. apply Forall_forall. intros c Hc. assert (X : needs_quotes delim c = false).
    { destruct (needs_quotes delim c) eqn:F; [|reflexivity]. rewrite <- E. symmetry. apply existsb_exists. eauto. }
    unfold needs_quotes, quote in X. rewrite !orb_false_iff, !N.eqb_neq in X. unfold bare. tauto.
Qed.
Lemma fields_ok x l : fields delim (join_str [delim] (map (field_text delim) (x :: l))) (x :: l).
Proof.
  revert x. induction l as [|y l IH]; intros x; [apply fs_one; apply field_ok|].
  change (join_str [delim] (map (field_text delim) (x :: y :: l)))
    with (field_text delim x ++ delim :: join_str [delim] (map (field_text delim) (y :: l))).
  apply fs_more; [apply field_ok|apply IH].
Qed.
Lemma record_ok x cells y rs : file delim y rs -> file delim (record_text delim (x :: cells) ++ y) (map text_of (x :: cells) :: rs).
Proof.
  intros H. unfold record_text.
  assert (E : map (fun o => field_text delim (match o with Some s => s | None => [] end)) (x :: cells) = map (field_text delim) (map text_of (x :: cells)))
    by (rewrite map_map; reflexivity). rewrite E.
  pose proof (fields_ok (text_of x) (map text_of cells)) as F. change (text_of x :: map text_of cells) with (map text_of (x :: cells)) in F.
  destruct (join_str [delim] (map (field_text delim) (map text_of (x :: cells)))) as [|c r] eqn:Ej.
  - rewrite <- app_assoc. cbn [app]. apply (fi_line delim [quote; quote]); [discriminate| |exact H].
    assert (C : cells = [] /\ text_of x = []).
    { inversion F as [a b G|a b a' l G1 G2]; subst; [|destruct a; discriminate]. split; [now destruct cells|].
      now inversion G. }
    destruct C as [-> C]. cbn [map]. rewrite C. apply fs_one. apply (f_quoted delim [] []). constructor.
  - rewrite <- app_assoc. apply (fi_line delim (c :: r)); [discriminate|exact F|exact H].
Qed.
(** The file is read as the columns and one line per reported row, in order: its number and the reported texts. *)
Theorem C132_read columns rows : exists lines, file delim (reported_file delim columns rows) (reporter_fields columns :: lines) /\
  length lines = length rows /\
  forall k row cells, nth_error rows k = Some row -> nth_error lines k = Some cells -> row_shown (reporter_fields columns) k row cells.
Proof.
  unfold reported_file, new_reporter. cbv zeta. set (fs := reporter_fields columns).
  assert (Hf : exists f l, fs = f :: l) by (unfold fs, reporter_fields; destruct columns as [[|f l]|]; do 2 eexists; reflexivity).
  assert (G : forall rows k r, rp_fields r = fs -> rp_id r = Z.of_nat (S k) -> exists w lines,
     rp_text (fold_left (report delim) rows r) = rp_text r ++ w /\ file delim w lines /\ length lines = length rows /\
     forall j row cells, nth_error rows j = Some row -> nth_error lines j = Some cells -> row_shown fs (k + j) row cells).
  { clear rows. induction rows as [|row rows IH]; intros k r R1 R2; cbn [fold_left].
    - exists [], []. rewrite app_nil_r. repeat split; [constructor|]. intros [|j] ? ? ?; discriminate.
    - destruct (IH (S k) (report delim r row)) as (w & lines & E & F & L & S).
      { exact R1. } { cbn [report rp_id]. lia. }
      cbn [report rp_text] in E. rewrite R1, R2 in E.
      exists (record_text delim (reported_cells fs (Z.of_nat (Datatypes.S k)) row) ++ w), (map text_of (reported_cells fs (Z.of_nat (Datatypes.S k)) row) :: lines).
      split; [rewrite E, app_assoc; reflexivity|]. split.
      { destruct Hf as (f & l & Hf). rewrite Hf. unfold reported_cells. cbn [map]. now apply record_ok. }
      split; [cbn; congruence|]. intros [|j] row' cells H1 H2; cbn [nth_error] in H1, H2.
      + injection H1 as <-. injection H2 as <-. rewrite Nat.add_0_r. unfold row_shown, reported_cells, ID. clear.
        induction fs as [|c fs IH]; [constructor|]. cbn [map]. constructor; [|exact IH].
        destruct (streq c (u "id")); [|reflexivity]. cbn [text_of]. apply show_z_ok.
      + replace (k + Datatypes.S j)%nat with (Datatypes.S k + j)%nat by lia. eapply S; eassumption. }
  destruct (G rows 0%nat (mkReporter (record_text delim (map Some fs)) fs 1) eq_refl eq_refl) as (w & lines & E & F & L & S).
  exists lines. rewrite E. cbn [rp_text]. split; [|split; [exact L|exact S]].
  destruct Hf as (f & l & Hf). rewrite Hf. cbn [map].
  assert (M : map text_of (Some f :: map Some l) = f :: l) by (cbn; f_equal; rewrite map_map; apply map_id).
  rewrite <- M. now apply record_ok.
Qed.

(* ---------------------------------------------------------------- *)
(** ** Reading is unambiguous *)
Definition ends (r : str) : Prop := exists c r', r = c :: r' /\ (c = delim \/ c = 13%N).
Lemma ends_not_quote r x : ends r -> r <> 34%N :: x.
Proof. intros (c & r' & -> & [->| ->]) E; injection E; intros; destruct Hd as (D1 & _); congruence. Qed.
Lemma inside_unique x s : inside x s -> forall x' s' r r', inside x' s' -> ends r -> ends r' ->
  x ++ 34%N :: r = x' ++ 34%N :: r' -> x = x' /\ s = s' /\ r = r'.
Proof.
  induction 1 as [|c x s Hc H IH|x s H IH]; intros x' s' r r' H' R R' E.
  - inversion H' as [|c x2 s2 Hc2 H2|x2 s2 H2]; subst; cbn [app] in E; injection E as E; try congruence; auto.
    exfalso. eapply ends_not_quote; [exact R|]. subst r. reflexivity.
  - inversion H' as [|c2 x2 s2 Hc2 H2|x2 s2 H2]; subst; cbn [app] in E; injection E; intros; try congruence. subst c2.
    destruct (IH _ _ _ _ H2 R R' H0) as (-> & -> & ->). auto.
  - inversion H' as [|c2 x2 s2 Hc2 H2|x2 s2 H2]; subst; cbn [app] in E; injection E as E; try congruence.
    + exfalso. eapply ends_not_quote; [exact R'|]. symmetry. exact E.
    + destruct (IH _ _ _ _ H2 R R' E) as (-> & -> & ->). auto.
Qed.
Lemma bare_unique x : Forall (bare delim) x -> forall x' r r', Forall (bare delim) x' -> ends r -> ends r' -> x ++ r = x' ++ r' -> x = x' /\ r = r'.
Proof.
  assert (B : forall c y r, bare delim c -> ends r -> r <> c :: y).
  { intros c y r (B1 & B2 & B3 & B4) (d & r' & -> & [->| ->]) E; injection E; intros; congruence. }
  induction 1 as [|c x Hc H IH]; intros x' r r' H' R R' E; inversion H' as [|c' x2 Hc' H2]; subst; cbn [app] in E; auto.
  - exfalso. exact (B _ _ _ Hc' R E).
  - exfalso. exact (B _ _ _ Hc R' (eq_sym E)).
  - injection E as -> E. destruct (IH _ _ _ H2 R R' E) as [-> ->]. auto.
Qed.
Lemma field_unique x s x' s' r r' : field delim x s -> field delim x' s' -> ends r -> ends r' -> x ++ r = x' ++ r' -> x = x' /\ s = s' /\ r = r'.
Proof.
  assert (M : forall s x r r', Forall (bare delim) s -> ends r -> s ++ r = (34%N :: x ++ [34%N]) ++ r' -> False).
  { intros a b p q F R E. destruct F as [|c a (_ & C & _) F]; cbn [app] in E; [now apply (ends_not_quote _ _ R) in E|]. injection E; intros; congruence. }
  intros H H' R R' E. destruct H as [s F|x s I], H' as [s' F'|x' s' I'].
  - destruct (bare_unique _ F _ _ _ F' R R' E) as [-> ->]. auto.
  - exfalso. eapply M; [exact F|exact R|exact E].
  - exfalso. eapply M; [exact F'|exact R'|symmetry; exact E].
  - cbn [app] in E. injection E as E. rewrite <- !app_assoc in E. cbn [app] in E. destruct (inside_unique _ _ I _ _ _ _ I' R R' E) as (-> & -> & ->). auto.
Qed.
Lemma fields_unique x l : fields delim x l -> forall x' l' r r', fields delim x' l' ->
  x ++ 13%N :: r = x' ++ 13%N :: r' -> x = x' /\ l = l' /\ r = r'.
Proof.
  assert (E13 : forall r, ends (13%N :: r)) by (intros r; exists 13%N, r; auto).
  assert (ED : forall r, ends (delim :: r)) by (intros r; exists delim, r; auto).
  induction 1 as [x s H|x s y l H Hl IH]; intros x' l' r r' H' E; inversion H' as [x2 s2 H2|x2 s2 y2 l2 H2 Hl2]; subst.
  - destruct (field_unique _ _ _ _ _ _ H H2 (E13 _) (E13 _) E) as (-> & -> & X). injection X as ->. auto.
  - rewrite <- app_assoc in E. cbn [app] in E. destruct (field_unique _ _ _ _ _ _ H H2 (E13 _) (ED _) E) as (_ & _ & X). injection X; intros; destruct Hd as (_ & D & _); congruence.
  - rewrite <- app_assoc in E. cbn [app] in E. destruct (field_unique _ _ _ _ _ _ H H2 (ED _) (E13 _) E) as (_ & _ & X). injection X; intros; destruct Hd as (_ & D & _); congruence.
  - rewrite <- !app_assoc in E. cbn [app] in E. destruct (field_unique _ _ _ _ _ _ H H2 (ED _) (ED _) E) as (-> & -> & X). injection X as X.
    destruct (IH _ _ _ _ Hl2 X) as (-> & -> & ->). auto.
Qed.
(** Every file has at most one reading. *)
Theorem C132_unique s l l' : file delim s l -> file delim s l' -> l = l'.
Proof.
  intros H. revert l'. induction H as [|x r y rs Hx Hr H IH]; intros l' H'.
  - inversion H' as [|x2 r2 y2 rs2 Hx2]; subst; [reflexivity|]. destruct x2; discriminate.
  - remember (x ++ 13%N :: 10%N :: y) as z eqn:Ez. destruct H' as [|x2 r2 y2 rs2 Hx2 Hr2 H2]; [destruct x; discriminate|].
    destruct (fields_unique _ _ Hr2 _ _ _ _ Hr Ez) as (-> & -> & X). injection X as ->. f_equal. now apply IH.
Qed.
End Write.

Lemma shown_map row k cols cells : forallb (fun c => negb (streq c (u "id"))) cols = true -> row_shown cols k row cells ->
  cells = map (fun c => text_of (match dict_get c row with Some o => o | None => None end)) cols.
Proof.
  intros Hc H. unfold row_shown in H. induction H as [|c x cols cells Hx H IH]; [reflexivity|]. cbn [forallb] in Hc. apply andb_true_iff in Hc as [H1 H2].
  apply negb_true_iff in H1. rewrite H1 in Hx. cbn [map]. rewrite Hx, (IH H2). reflexivity.
Qed.
(** With the default columns every column of a reported row has its text. *)
Theorem C132_columns show_match show_details k name multiple r cells :
  row_shown DEFAULT_COLUMNS k (row_dict show_match show_details name multiple r) cells ->
  exists id, decimal id (N.of_nat (S k)) /\
  cells = [id; name; show_bool multiple; rw_pre r; rw_current r; show_z (rw_start r); show_z (rw_next_start r);
     match rw_end r with Some b => show_bool b | None => [] end; rw_combined r; rw_choice r; text_of (rw_next r);
     show_bool (rw_accepted r); show_bool (rw_short r); show_bool (rw_sub r);
     show_match (rw_fm_combined r); show_details (rw_fm_combined r); show_match (rw_fm r); show_details (rw_fm r);
     show_match (rw_fm_next r); show_details (rw_fm_next r)].
Proof.
  intros H. destruct cells as [|id cells]; [inversion H|]. assert (T : row_shown (tl DEFAULT_COLUMNS) k (row_dict show_match show_details name multiple r) cells) by (inversion H; assumption).
  assert (I : decimal id (N.of_nat (S k))) by (inversion H; assumption).
  exists id. split; [exact I|]. f_equal. rewrite (shown_map _ k (tl DEFAULT_COLUMNS) cells eq_refl T). unfold row_dict. destruct (rw_end r); reflexivity.
Qed.

(* ---------------------------------------------------------------- *)
(** ** Examples *)
Definition ex_columns : option (list str) := Some [u "id"; u "tag"; u "text"].
Definition ex_rows : list (list (str * ostr)) :=
  [[(u "tag", Some (u "title")); (u "text", Some (u "a, ""b""" ++ [10%N] ++ u "c"))]; [(u "text", None)]].
Example C132_ex_file : reported_file 44 ex_columns ex_rows =
  u "id,tag,text" ++ [13%N; 10%N] ++ u "1,title,""a, """"b""""" ++ [10%N] ++ u "c""" ++ [13%N; 10%N] ++ u "2,," ++ [13%N; 10%N].
Proof. vm_compute. reflexivity. Qed.
Example C132_ex_read : file 44 (reported_file 44 ex_columns ex_rows)
  [[u "id"; u "tag"; u "text"]; [u "1"; u "title"; u "a, ""b""" ++ [10%N] ++ u "c"]; [u "2"; []; []]].
Proof.
  assert (D : (44%N <> 34%N /\ 44%N <> 13%N /\ 44%N <> 10%N)) by (repeat split; discriminate).
  unfold reported_file, ex_rows. cbn [fold_left report rp_text rp_fields rp_id new_reporter]. rewrite <- !app_assoc.
  apply (record_ok 44 D (Some (u "id")) [Some (u "tag"); Some (u "text")]). apply (record_ok 44 D (Some (u "1")) [Some (u "title"); Some (u "a, ""b""" ++ [10%N] ++ u "c")]).
  rewrite <- (app_nil_r (record_text _ _)). apply (record_ok 44 D (Some (u "2")) [None; None]). constructor.
Qed.
Example C132_ex_columns : exists lines, file 9 (reported_file 9 None []) (DEFAULT_COLUMNS :: lines) /\ lines = [].
Proof.
  destruct (C132_read 9 ltac:(repeat split; discriminate) None []) as (lines & H & L & _). exists lines. split; [exact H|]. now destruct lines.
Qed.

Print Assumptions C132_read.
Print Assumptions C132_unique.
Print Assumptions C132_columns.
