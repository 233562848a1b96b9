(** C49: DOIs, titles and URLs in texts *)
From Verif Require Import Base ModelDownload ModelJatsText.
Open Scope nat_scope.

(* ---------------------------------------------------------------- *)
(** ** Specification *)
Section Text.
Variables sp wd dg : N -> bool.
Variable token_at : str -> bool.
Variables nopunct nopunct_space : str -> str.
(** the characters of Python's [re] *)
Record classes_ok : Prop := mkClasses {
  dg_not_sp : forall x, dg x = true -> sp x = false;
  dg_plain : forall x, In x (u " (./"%string) -> dg x = false;
  sp_plain : forall x, In x (u "10./"%string) -> sp x = false;
  wd_one : wd 49%N = true }.
Hypothesis Hc : classes_ok.

(** 10., four digits or more, parts, slash *)
Definition number (s : str) : Prop := s <> [] /\ forallb dg s = true.
Definition doi_head (h : str) : Prop := exists ds parts,
  h = u "10."%string ++ ds ++ flat_map (fun g => 46%N :: g) parts ++ [47%N] /\ number ds /\ 4 <= length ds /\ Forall number parts.
(** a DOI at some place of the text: not within a word, not at the end of the line *)
Definition doi_place (a h : str) (x : N) (b : str) : Prop :=
  doi_head h /\ x <> NEWLINE /\ (forall a' y, a = a' ++ [y] -> wd y = false).

(* ---------------------------------------------------------------- *)
(** ** The pattern *)
Lemma doi_number_sound s : forall need have n, doi_number dg need have s = Some n ->
  exists ds parts, s = ds ++ flat_map (fun g => 46%N :: g) parts ++ 47%N :: skipn n s /\
    n = length (ds ++ flat_map (fun g => 46%N :: g) parts ++ [47%N]) /\
    forallb dg ds = true /\ need <= have + length ds /\ Forall number parts.
Proof.
  induction s as [|x s IH]; intros need have n; cbn [doi_number]; [discriminate|]. destruct (dg x) eqn:Ex.
  - destruct (doi_number dg need (S have) s) as [m|] eqn:E; [|discriminate]. cbn [option_map]. intros [= <-].
    destruct (IH _ _ _ E) as (ds & parts & E1 & E2 & E3 & E4 & E5). exists (x :: ds), parts. cbn [skipn app length forallb]. rewrite Ex, E3.
    split; [now f_equal|]. split; [now rewrite E2|]. split; [reflexivity|]. split; [lia|exact E5].
  - destruct (need <=? have) eqn:En; [|discriminate]. apply Nat.leb_le in En. destruct (N.eqb x 46) eqn:E46.
    + apply N.eqb_eq in E46 as ->. destruct (doi_number dg 1 0 s) as [m|] eqn:E; [|discriminate]. cbn [option_map]. intros [= <-].
      destruct (IH _ _ _ E) as (ds & parts & E1 & E2 & E3 & E4 & E5). exists [], (ds :: parts). cbn [skipn app length forallb flat_map].
      split; [f_equal; rewrite <- app_assoc; exact E1|]. split; [rewrite E2, <- app_assoc; reflexivity|]. split; [reflexivity|]. split; [lia|].
      constructor; [|exact E5]. split; [intros ->; cbn in E4; lia|exact E3].
    + destruct (N.eqb x 47) eqn:E47; [|discriminate]. apply N.eqb_eq in E47 as ->. intros [= <-]. exists [], []. cbn. repeat split; auto; lia.
Qed.
Lemma doi_number_digits ds : forall need have r, forallb dg ds = true ->
  doi_number dg need have (ds ++ r) = option_map (Nat.add (length ds)) (doi_number dg need (have + length ds) r).
Proof.
  induction ds as [|x ds IH]; intros need have r H; cbn [app length].
  - rewrite Nat.add_0_r. destruct (doi_number dg need have r); reflexivity.
  - cbn [forallb] in H. apply andb_true_iff in H as [Hx H]. cbn [doi_number]. rewrite Hx, IH by assumption.
    replace (have + S (length ds)) with (S have + length ds) by lia. destruct (doi_number dg need (S have + length ds) r); reflexivity.
Qed.
Lemma doi_number_complete ds parts r need : forallb dg ds = true -> need <= length ds -> Forall number parts ->
  doi_number dg need 0 (ds ++ flat_map (fun g => 46%N :: g) parts ++ 47%N :: r) = Some (length (ds ++ flat_map (fun g => 46%N :: g) parts ++ [47%N])).
Proof.
  revert ds need. induction parts as [|g parts IH]; intros ds need Hd Hn Hp; rewrite doi_number_digits by assumption; cbn [flat_map app].
  - cbn [doi_number]. rewrite (dg_plain Hc 47) by (cbn; auto). apply Nat.leb_le in Hn. cbn [Nat.add]. rewrite Hn. cbn. f_equal. rewrite app_length. cbn. lia.
  - inversion Hp as [|? ? [Hg1 Hg2] Hp']; subst. cbn [doi_number]. rewrite (dg_plain Hc 46) by (cbn; auto). apply Nat.leb_le in Hn. cbn [Nat.add]. rewrite Hn.
    cbn [N.eqb Pos.eqb]. rewrite <- app_assoc, IH; [|exact Hg2|destruct g; [congruence|cbn; lia]|exact Hp']. cbn [option_map]. f_equal.
    rewrite <- app_assoc, (app_length ds). cbn [length]. reflexivity.
Qed.
Lemma line_zero s : line_length s = 0 <-> match s with [] => True | x :: _ => x = NEWLINE end.
Proof. destruct s as [|x s]; cbn; [tauto|]. destruct (N.eqb x NEWLINE) eqn:E; [apply N.eqb_eq in E; tauto|apply N.eqb_neq in E; split; [discriminate|tauto]]. Qed.
Lemma line_le s : line_length s <= length s.
Proof. induction s as [|x s IH]; cbn; [lia|]. destruct (N.eqb x NEWLINE); lia. Qed.
Lemma doi_at_sound s n : doi_at dg s = Some n -> exists h x b, s = h ++ x :: b /\ doi_head h /\ x <> NEWLINE /\ length h < n <= length s.
Proof.
  unfold doi_at. destruct (starts_with (u "10."%string) s) eqn:E; [|discriminate]. apply starts_with_spec in E as [r ->].
  change (skipn 3 (u "10."%string ++ r)) with r. destruct (doi_number dg 4 0 r) as [m|] eqn:Em; [|discriminate].
  destruct (doi_number_sound _ _ _ _ Em) as (ds & parts & E1 & E2 & E3 & E4 & E5). change (skipn (3 + m) (u "10."%string ++ r)) with (skipn m r).
  destruct (line_length (skipn m r)) as [|k] eqn:Ek; [discriminate|]. intros [= <-].
  destruct (skipn m r) as [|x b] eqn:Er; [discriminate|]. exists (u "10."%string ++ ds ++ flat_map (fun g => 46%N :: g) parts ++ [47%N]), x, b.
  split; [rewrite E1; repeat rewrite <- app_assoc; reflexivity|].
  split; [exists ds, parts; split; [reflexivity|]; split; [split; [intros ->; cbn in E4; lia|exact E3]|]; split; [lia|exact E5]|].
  split; [intros ->; discriminate Ek|]. rewrite app_length, <- E2. change (length (u "10."%string)) with 3. split; [lia|].
  rewrite app_length. change (length (u "10."%string)) with 3. pose proof (line_le (skipn m r)) as L. rewrite Er, Ek, <- Er, skipn_length in L. 
  assert (m <= length r); [|lia]. rewrite E1, E2. rewrite !app_length. cbn. lia.
Qed.
Lemma doi_at_complete h x b : doi_head h -> x <> NEWLINE -> exists n, doi_at dg (h ++ x :: b) = Some n.
Proof.
  intros (ds & parts & -> & [_ H1] & H2 & H3) Hx. unfold doi_at. repeat rewrite <- app_assoc. rewrite starts_with_app.
  set (r := ds ++ flat_map (fun g => 46%N :: g) parts ++ [47%N] ++ x :: b). change (skipn 3 (u "10."%string ++ r)) with r. unfold r at 1. cbn [app].
  rewrite doi_number_complete by assumption. set (k := length _).
  change (skipn (3 + k) (u "10."%string ++ r)) with (skipn k r). unfold r. cbn [app].
  assert (E : forall r, skipn k (ds ++ flat_map (fun g => 46%N :: g) parts ++ 47%N :: r) = r).
  { intros q. replace (ds ++ flat_map (fun g => 46%N :: g) parts ++ 47%N :: q) with ((ds ++ flat_map (fun g => 46%N :: g) parts ++ [47%N]) ++ q) by (repeat rewrite <- app_assoc; reflexivity).
    unfold k. rewrite skipn_app, skipn_all, Nat.sub_diag. reflexivity. }
  rewrite E. destruct (line_length (x :: b)) as [|m] eqn:El; [|eauto]. apply line_zero in El. contradiction.
Qed.
Lemma head_one h : doi_head h -> exists r, h = 49%N :: r.
Proof. intros (ds & parts & -> & _). eexists. reflexivity. Qed.
Lemma boundary_one prev r : boundary wd prev (49%N :: r) = negb (match prev with Some y => wd y | None => false end).
Proof. unfold boundary. rewrite (wd_one Hc). apply xorb_true_r. Qed.
Lemma doi_search_spec s : forall prev pos,
  match doi_search wd dg prev pos s with
  | Some (i, j) => exists a h x b, s = a ++ h ++ x :: b /\ doi_head h /\ x <> NEWLINE /\ i = pos + length a /\ pos + length a + length h < j <= pos + length s /\
      (forall a' y, a = a' ++ [y] -> wd y = false) /\ (a = [] -> match prev with Some y => wd y = false | None => True end)
  | None => forall a h x b, s = a ++ h ++ x :: b -> doi_head h -> x <> NEWLINE ->
      (forall a' y, a = a' ++ [y] -> wd y = false) -> (a = [] -> match prev with Some y => wd y = false | None => True end) -> False
  end.
Proof.
  induction s as [|y s IH]; intros prev pos; cbn [doi_search].
  - assert (E : (if boundary wd prev [] then doi_at dg [] else None) = None) by (destruct (boundary wd prev []); reflexivity). rewrite E.
    intros [|z a] h x b H Hh; [|discriminate]. destruct (head_one h Hh) as [r ->]. discriminate.
  - destruct (if boundary wd prev (y :: s) then doi_at dg (y :: s) else None) as [n|] eqn:E.
    + destruct (boundary wd prev (y :: s)) eqn:Eb; [|discriminate]. destruct (doi_at_sound _ _ E) as (h & x & b & E1 & E2 & E3 & E4).
      exists [], h, x, b. split; [exact E1|]. split; [exact E2|]. split; [exact E3|]. cbn [length]. split; [lia|]. cbn [length] in E4. split; [lia|].
      split; [intros a' z K; destruct a'; discriminate|]. intros _. destruct (head_one h E2) as [r ->]. cbn [app] in E1. injection E1 as -> _. rewrite boundary_one in Eb.
      destruct prev as [z|]; [|exact I]. now apply negb_true_iff in Eb.
    + specialize (IH (Some y) (S pos)). destruct (doi_search wd dg (Some y) (S pos) s) as [[i j]|].
      * destruct IH as (a & h & x & b & E1 & E2 & E3 & E4 & E5 & E6 & E7). exists (y :: a), h, x, b. cbn [app length]. rewrite E1 at 1.
        split; [reflexivity|]. split; [exact E2|]. split; [exact E3|]. split; [lia|]. split; [lia|]. split; [|discriminate].
        intros [|z a'] z' K; [injection K as -> ->; now apply E7|]. injection K as <- K. now apply (E6 a').
      * intros [|z a] h x b H Hh Hx Hw Hp.
        -- cbn [app] in H. destruct (doi_at_complete h x b Hh Hx) as [n En]. destruct (head_one h Hh) as [r ->]. cbn [app] in H, En. injection H as -> ->. rewrite boundary_one, En in E.
           destruct prev as [z|]; [|discriminate]. now rewrite (Hp eq_refl) in E.
        -- injection H as <- H. apply (IH a h x b H Hh Hx); [intros a' z K; apply (Hw (y :: a')); now rewrite K|]. intros ->. now apply (Hw []).
Qed.

(* ---------------------------------------------------------------- *)
(** ** Cutting off *)
(** [d] is a start of [t] that contains [h] *)
Definition cut (h t d : str) : Prop := exists b c, d = h ++ b /\ t = d ++ c.
Lemma cut_trans h t d d' : cut h t d -> cut h d d' -> cut h t d'.
Proof. intros (b & c & -> & ->) (b' & c' & -> & E). exists b', (c' ++ c). split; [reflexivity|]. now rewrite E, <- app_assoc. Qed.
Lemma cut_firstn h b n : cut h (h ++ b) (h ++ firstn n b).
Proof. exists (firstn n b), (skipn n b). split; [reflexivity|]. now rewrite <- app_assoc, firstn_skipn. Qed.
Lemma rstrip_by_prefix f s : exists c, s = rstrip_by f s ++ c /\ forallb f c = true.
Proof.
  unfold rstrip_by. assert (H : forall r, exists c, r = c ++ drop_while f r /\ forallb f c = true).
  { induction r as [|x r (c & E & F)]; [exists []; auto|]. cbn [drop_while]. destruct (f x) eqn:Ex; [|exists []; auto]. exists (x :: c). cbn. rewrite Ex. split; [now f_equal|exact F]. }
  destruct (H (rev s)) as (c & E & F). exists (rev c). split; [rewrite <- rev_app_distr, <- E; symmetry; apply rev_involutive|].
  rewrite forallb_forall in *. intros x Hx. apply F. now apply in_rev.
Qed.
Lemma cut_rstrip f h0 z b : f z = false -> cut (h0 ++ [z]) ((h0 ++ [z]) ++ b) (rstrip_by f ((h0 ++ [z]) ++ b)).
Proof.
  intros Hz. destruct (rstrip_by_prefix f ((h0 ++ [z]) ++ b)) as (c & E & F). set (d := rstrip_by f ((h0 ++ [z]) ++ b)) in *.
  assert (L : length (h0 ++ [z]) <= length d).
  { destruct (Nat.le_gt_cases (length (h0 ++ [z])) (length d)) as [L|L]; [exact L|]. exfalso.
    assert (In z c); [|rewrite forallb_forall in F; specialize (F z H); congruence].
    rewrite app_length in L. cbn in L. assert (K : nth_error (d ++ c) (length h0) = Some z).
    { rewrite <- E, <- app_assoc, nth_error_app2, Nat.sub_diag by lia. reflexivity. }
    rewrite nth_error_app2 in K by lia. eapply nth_error_In. exact K. }
  exists (skipn (length (h0 ++ [z])) d), c. split; [|exact E].
  rewrite <- (firstn_skipn (length (h0 ++ [z])) d) at 1. f_equal.
  apply (f_equal (firstn (length (h0 ++ [z])))) in E. rewrite firstn_app, firstn_all, Nat.sub_diag in E. cbn [firstn] in E. rewrite app_nil_r in E.
  rewrite firstn_app in E. replace (length (h0 ++ [z]) - length d) with 0 in E by lia. cbn [firstn] in E. rewrite app_nil_r in E. now symmetry.
Qed.
Lemma cut_suffix h0 z b suf : ends_with suf ((h0 ++ [z]) ++ b) = true -> ~ In z suf ->
  cut (h0 ++ [z]) ((h0 ++ [z]) ++ b) (firstn (length ((h0 ++ [z]) ++ b) - length suf) ((h0 ++ [z]) ++ b)).
Proof.
  unfold ends_with. intros H Hz. apply starts_with_spec in H as [r H]. apply (f_equal (@rev N)) in H. rewrite rev_involutive, rev_app_distr, rev_involutive in H.
  set (q := rev r) in *. assert (L : length suf <= length b).
  { destruct (Nat.le_gt_cases (length suf) (length b)) as [L|L]; [exact L|]. exfalso. apply Hz.
    assert (E : length h0 + 1 + length b = length q + length suf) by (apply (f_equal (@length N)) in H; rewrite !app_length in H; cbn in H; lia).
    assert (K : nth_error (q ++ suf) (length h0) = Some z) by (rewrite <- H, <- app_assoc, nth_error_app2, Nat.sub_diag by lia; reflexivity).
    rewrite nth_error_app2 in K by lia. eapply nth_error_In. exact K. }
  rewrite app_length, firstn_app. rewrite firstn_all2 by lia. apply cut_firstn.
Qed.
Lemma head_chars h : doi_head h -> exists h0, h = h0 ++ [47%N] /\ ~ In 47%N h0 /\ forall x, In x h -> sp x = false /\ x <> 32%N /\ x <> 40%N.
Proof.
  intros (ds & parts & -> & [_ H1] & _ & H3).
  assert (D : forall x, In x (ds ++ flat_map (fun g => 46%N :: g) parts) -> dg x = true \/ x = 46%N).
  { intros x Hx. apply in_app_or in Hx as [Hx|Hx]; [rewrite forallb_forall in H1; auto|].
    apply in_flat_map in Hx as (g & Hg & [<-|Hx]); [auto|]. rewrite Forall_forall in H3. destruct (H3 g Hg) as [_ K]. rewrite forallb_forall in K. auto. }
  exists (u "10."%string ++ ds ++ flat_map (fun g => 46%N :: g) parts). split; [now rewrite <- !app_assoc|]. split.
  - intros H. apply in_app_or in H as [H|H]; [cbn in H; intuition discriminate|]. apply D in H as [H|H]; [|discriminate].
    rewrite (dg_plain Hc 47) in H by (cbn; auto). discriminate.
  - intros x Hx.
    assert (Q : In x (u "10./"%string) \/ dg x = true).
    { apply in_app_or in Hx as [Hx|Hx]; [left; cbn in Hx |- *; tauto|]. rewrite app_assoc in Hx. apply in_app_or in Hx as [Hx|Hx]; [|left; cbn in Hx |- *; tauto].
      apply D in Hx as [Hx| ->]; [now right|left; cbn; auto]. }
    destruct Q as [Q|Q].
    + split; [now apply (sp_plain Hc)|]. cbn in Q. intuition (subst; discriminate).
    + split; [now apply (dg_not_sp Hc)|]. split; intros ->; [rewrite (dg_plain Hc 32) in Q by (cbn; auto)|rewrite (dg_plain Hc 40) in Q by (cbn; auto)]; discriminate.
Qed.
Section Cuts.
Variables h h0 : str.
Hypothesis Hh : h = h0 ++ [47%N].
Hypothesis Hslash : ~ In 47%N h0.
Hypothesis Hchars : forall x, In x h -> sp x = false /\ x <> 32%N /\ x <> 40%N.
Lemma cut_refl b : cut h (h ++ b) (h ++ b).
Proof. exists b, []. now rewrite app_nil_r. Qed.
Lemma cut_then t d (f : str -> str) : cut h t d -> (forall b, cut h (h ++ b) (f (h ++ b))) -> cut h t (f d).
Proof. intros H Hf. eapply cut_trans; [exact H|]. destruct H as (b & c & -> & _). apply Hf. Qed.
Lemma keep_rstrip f b : f 47%N = false -> cut h (h ++ b) (rstrip_by f (h ++ b)).
Proof. rewrite Hh. apply cut_rstrip. Qed.
Lemma sp_slash : sp 47%N = false.
Proof. apply (sp_plain Hc). cbn. auto. Qed.
Lemma keep_truncate b : cut h (h ++ b) (truncate_doi sp token_at (h ++ b)).
Proof.
  unfold truncate_doi. assert (K : forall l b n, (forall x, In x l -> sp x = false /\ x <> 32%N /\ x <> 40%N) -> stop_position sp token_at (l ++ b) = Some n -> length l <= n).
  { clear. induction l as [|x l IH]; intros b n Hl; cbn [app stop_position length]; [lia|]. destruct (Hl x (or_introl eq_refl)) as (E1 & _ & E2). apply N.eqb_neq in E2. rewrite E1, E2. cbn [orb andb].
    destruct (stop_position sp token_at (l ++ b)) as [m|] eqn:E; [|discriminate]. cbn. intros [= <-]. apply IH in E; [lia|]. intros y Hy. apply Hl. now right. }
  destruct (stop_position sp token_at (h ++ b)) as [n|] eqn:E; [|apply cut_refl]. apply K in E; [|exact Hchars].
  apply cut_then; [|intros b'; now apply keep_rstrip]. apply (cut_then _ _ (rstrip sp)); [|intros b'; apply keep_rstrip, sp_slash].
  rewrite firstn_app, firstn_all2 by exact E. apply cut_firstn.
Qed.
Lemma keep_suffix suf b : ~ In 47%N suf -> cut h (h ++ b) (if ends_with suf (h ++ b) then rstrip sp (firstn (length (h ++ b) - length suf) (h ++ b)) else h ++ b).
Proof.
  intros Hs. destruct (ends_with suf (h ++ b)) eqn:E; [|apply cut_refl]. apply cut_then; [|intros b'; apply keep_rstrip, sp_slash].
  rewrite Hh in E |- *. now apply cut_suffix.
Qed.
Lemma keep_last b a r : split_last 32 (h ++ b) = Some (a, r) -> cut h (h ++ b) a.
Proof.
  assert (K : forall l b a r, ~ In 32%N l -> split_last 32 (l ++ b) = Some (a, r) -> exists a', a = l ++ a' /\ b = a' ++ r).
  { clear. induction l as [|x l IH]; intros b a r Hl; cbn [app split_last].
    - intros H. exists a. split; [reflexivity|]. revert a r H. induction b as [|y b IHb]; intros a r; cbn [split_last]; [discriminate|].
      destruct (split_last 32 b) as [[a1 b1]|] eqn:E; [intros [= <- <-]; cbn; f_equal; now apply IHb|]. destruct (N.eqb y 32); [intros [= <- <-]; reflexivity|discriminate].
    - destruct (split_last 32 (l ++ b)) as [[a1 b1]|] eqn:E.
      + intros [= <- <-]. destruct (IH b a1 b1) as (a' & -> & E'); [intros H; apply Hl; now right|exact E|]. exists a'. auto.
      + destruct (N.eqb x 32) eqn:Ex; [|discriminate]. apply N.eqb_eq in Ex. exfalso. apply Hl. now left. }
  intros H. apply K in H as (a' & -> & E); [exists a', r; split; [reflexivity|now rewrite E, app_assoc]|]. intros Hi. now destruct (Hchars _ Hi) as (_ & Q & _).
Qed.
Lemma keep_pii b : cut h (h ++ b) (strip_pii_from_doi sp nopunct (h ++ b)).
Proof.
  unfold strip_pii_from_doi. pose proof (keep_suffix (u "[pii]"%string) b) as K. destruct (ends_with (u "[pii]"%string) (h ++ b)); cbn [negb]; [|apply cut_refl].
  change (length (u "[pii]"%string)) with 5 in K. specialize (K ltac:(cbn; intuition discriminate)). set (d := rstrip sp (firstn (length (h ++ b) - 5) (h ++ b))) in *.
  destruct (split_last 32 d) as [[a r]|] eqn:E; [|exact K].
  assert (A : cut h (h ++ b) (rstrip sp a)).
  { apply (cut_then _ _ (rstrip sp)); [|intros b'; apply keep_rstrip, sp_slash]. eapply cut_trans; [exact K|]. destruct K as (b' & c & Ed & _). rewrite Ed in *. eapply keep_last. exact E. }
  destruct (length (tl r) <? 3); [exact K|]. destruct (contains (tl r) a); [exact A|]. destruct (length (nopunct (tl r)) <? 3); [exact K|].
  destruct (contains (nopunct (tl r)) (nopunct a)); [exact A|exact K].
Qed.
Lemma keep_dup b : exists d, remove_duplicate_doi sp wd dg nopunct_space (h ++ b) = Ok d /\ cut h (h ++ b) d.
Proof.
  unfold remove_duplicate_doi. assert (K : forall l b, ~ In 47%N l -> split_first 47 ((l ++ [47%N]) ++ b) = Some (l, b)).
  { clear. induction l as [|x l IH]; intros b Hl; cbn [app split_first]; [reflexivity|]. destruct (N.eqb x 47) eqn:Ex; [apply N.eqb_eq in Ex; exfalso; apply Hl; now left|].
    rewrite IH; [reflexivity|]. intros H. apply Hl. now right. }
  assert (Es : split_first 47 (h ++ b) = Some (h0, b)) by (rewrite Hh; now apply K). rewrite Es. destruct (find_doi_pattern wd dg b) as [[i j]|]; [|eexists; split; [reflexivity|apply cut_refl]].
  replace (h0 ++ 47%N :: firstn i b) with (h ++ firstn i b) by (rewrite Hh, <- app_assoc; reflexivity).
  assert (A : cut h (h ++ b) (rstrip sp (h ++ firstn i b))) by (apply (cut_then _ _ (rstrip sp)); [apply cut_firstn|intros b'; apply keep_rstrip, sp_slash]).
  destruct (contains _ _); [eexists; split; [reflexivity|exact A]|]. destruct (contains _ _); eexists; (split; [reflexivity|]); [exact A|apply cut_refl].
Qed.
End Cuts.

(** Never an error; what is reported is a part of the text that starts with 10., digits and a
    slash, at the start of a word; if there is such a place something is reported. *)
Theorem C49_doi text : exists r, find_doi_start_end sp wd dg token_at nopunct nopunct_space text = Ok r /\
  match r with
  | Some (i, j) => exists a h b c, text = a ++ (h ++ b) ++ c /\ doi_head h /\ i = length a /\ j = i + length (h ++ b) /\
      (forall a' y, a = a' ++ [y] -> wd y = false)
  | None => forall a h x b, text = a ++ h ++ x :: b -> doi_place a h x b -> False
  end.
Proof.
  unfold find_doi_start_end, find_doi_pattern. pose proof (doi_search_spec text None 0) as S. destruct (doi_search wd dg None 0 text) as [[i j]|].
  2:{ eexists. split; [reflexivity|]. intros a h x b E (H1 & H2 & H3). apply (S a h x b E H1 H2 H3). auto. }
  destruct S as (a & h & x & b & E & Hh & Hx & Ei & Ej & Hw & _). cbn [Nat.add] in Ei, Ej. subst i.
  assert (Sk : skipn (length a) text = h ++ x :: b) by (rewrite E, skipn_app, skipn_all, Nat.sub_diag; reflexivity). rewrite Sk.
  destruct (head_chars h Hh) as (h0 & E0 & Hs & Hch).
  set (t := h ++ x :: b) in *.
  assert (C0 : cut h t (firstn (j - length a) t)).
  { unfold t. rewrite firstn_app, firstn_all2 by lia. apply cut_firstn. }
  assert (C1 : cut h t (rstrip sp (rstrip_char 46 (rstrip sp (firstn (j - length a) t))))).
  { apply (cut_then h _ _ (rstrip sp)); [|intros b'; eapply keep_rstrip; [exact E0|apply sp_slash]].
    apply (cut_then h _ _ (rstrip_char 46)); [|intros b'; eapply keep_rstrip; [exact E0|reflexivity]].
    apply (cut_then h _ _ (rstrip sp)); [exact C0|intros b'; eapply keep_rstrip; [exact E0|apply sp_slash]]. }
  set (d1 := rstrip sp (rstrip_char 46 (rstrip sp (firstn (j - length a) t)))) in *.
  assert (C2 : cut h t (truncate_doi sp token_at d1)) by (apply (cut_then h _ _ (truncate_doi sp token_at)); [exact C1|intros b'; now apply (keep_truncate h h0)]).
  set (d2 := truncate_doi sp token_at d1) in *.
  assert (C3 : cut h t (if ends_with (u "[doi]"%string) d2 then rstrip sp (firstn (length d2 - 5) d2) else d2)).
  { apply (cut_then h _ _ (fun d2 => if ends_with (u "[doi]"%string) d2 then rstrip sp (firstn (length d2 - 5) d2) else d2)); [exact C2|].
    intros b'. apply (keep_suffix h h0 E0 (u "[doi]"%string) b'). cbn. intuition discriminate. }
  set (d3 := if ends_with (u "[doi]"%string) d2 then _ else d2) in *.
  assert (C4 : cut h t (strip_pii_from_doi sp nopunct d3)) by (apply (cut_then h _ _ (strip_pii_from_doi sp nopunct)); [exact C3|intros b'; now apply (keep_pii h h0)]).
  set (d4 := strip_pii_from_doi sp nopunct d3) in *.
  assert (C5 : exists d5, remove_duplicate_doi sp wd dg nopunct_space d4 = Ok d5 /\ cut h t d5).
  { destruct C4 as (b4 & c4 & E4 & E4'). rewrite E4. destruct (keep_dup h h0 E0 Hs b4) as (d5 & Q1 & Q2). exists d5. split; [exact Q1|].
    eapply cut_trans; [|exact Q2]. exists b4, c4. split; [reflexivity|]. now rewrite <- E4. }
  destruct C5 as (d5 & -> & C5). cbn [bind].
  assert (C6 : cut h t (rstrip_char 59 d5)) by (apply (cut_then h _ _ (rstrip_char 59)); [exact C5|intros b'; eapply keep_rstrip; [exact E0|reflexivity]]).
  set (d6 := rstrip_char 59 d5) in *.
  assert (C7 : cut h t (if count_char 91 d6 <? count_char 93 d6 then rstrip sp (rstrip_char 93 d6) else d6)).
  { destruct (_ <? _); [|exact C6]. apply (cut_then h _ _ (rstrip sp)); [|intros b'; eapply keep_rstrip; [exact E0|apply sp_slash]].
    apply (cut_then h _ _ (rstrip_char 93)); [exact C6|intros b'; eapply keep_rstrip; [exact E0|reflexivity]]. }
  set (d7 := if count_char 91 d6 <? count_char 93 d6 then _ else d6) in *. destruct C7 as (b7 & c7 & E7 & T7).
  assert (firstn (length d7) t = d7) as -> by (rewrite T7, firstn_app, firstn_all, Nat.sub_diag; cbn; apply app_nil_r). rewrite streq_refl.
  eexists. split; [reflexivity|]. cbv iota beta. exists a, h, b7, c7. rewrite <- E7, <- T7. split; [exact E|]. split; [exact Hh|]. auto.
Qed.

(** Titles: a part of the text. *)
Theorem C49_title text : let (i, j) := find_article_title_start_end sp dg text in i <= j <= length text.
Proof.
  unfold find_article_title_start_end. assert (L : match title_end sp dg text with Some n => n | None => length text end <= length text).
  { destruct (title_end sp dg text) as [n|] eqn:E; [|lia]. revert n E. induction text as [|x s IH]; intros n; cbn [title_end].
    - destruct (title_rest sp dg []); [intros [= <-]; cbn; lia|discriminate].
    - destruct (title_rest sp dg (x :: s)); [intros [= <-]; cbn; lia|]. destruct (N.eqb x NEWLINE); [discriminate|].
      destruct (title_end sp dg s) as [m|]; [|discriminate]. cbn. intros [= <-]. specialize (IH m eq_refl). lia. }
  set (stop := match title_end sp dg text with Some n => n | None => length text end) in *.
  destruct (has_quotes text 0 stop) eqn:E; [|lia]. unfold has_quotes in E. apply andb_true_iff in E as [E _]. apply Nat.ltb_lt in E. lia.
Qed.
End Text.

(* ---------------------------------------------------------------- *)
(** ** URLs *)
Lemma split_urls_concat s : forall cur, concat (split_urls cur s) = cur ++ s.
Proof.
  induction s as [|x s IH]; intros cur; cbn [split_urls].
  - destruct cur; cbn; now rewrite ?app_nil_r.
  - destruct (url_at (x :: s)); [destruct cur as [|y cur]|]; cbn [concat]; rewrite IH; [reflexivity|reflexivity|]. now rewrite <- app_assoc.
Qed.
Lemma url_at_app a b : url_at a = true -> url_at (a ++ b) = true.
Proof.
  unfold url_at. intros H. apply orb_true_iff in H as [H|H]; apply starts_with_spec in H as [r ->]; rewrite <- app_assoc, starts_with_app; [reflexivity|apply orb_true_r].
Qed.
(** no start of a URL in the text but at its start *)
Definition no_inner (p rest : str) : Prop := forall a b, p = a ++ b -> a <> [] -> b <> [] -> url_at (b ++ rest) = false.
Lemma split_urls_inner s : forall cur, no_inner cur s -> Forall (fun p => p <> [] /\ no_inner p []) (split_urls cur s).
Proof.
  assert (Weak : forall p r, no_inner p r -> no_inner p []).
  { intros p r H a b E Ha Hb. rewrite app_nil_r. destruct (url_at b) eqn:K; [|reflexivity]. rewrite <- (H a b E Ha Hb). symmetry. now apply url_at_app. }
  assert (One : forall x s, no_inner [x] s).
  { intros x s' a b E Ha Hb. destruct a as [|z a]; [congruence|]. injection E as _ E. destruct a; [|discriminate]. cbn in E. congruence. }
  induction s as [|x s IH]; intros cur Hc; cbn [split_urls].
  - destruct cur as [|y cur]; [constructor|]. constructor; [split; [discriminate|exact Hc]|constructor].
  - destruct (url_at (x :: s)) eqn:Eu.
    + destruct cur as [|y cur]; [apply IH, One|]. constructor; [|apply IH, One]. split; [discriminate|]. eapply Weak. exact Hc.
    + apply IH. intros a b E Ha Hb. destruct (exists_last Hb) as (b' & z & ->). rewrite app_assoc in E. apply app_inj_tail in E as [E <-]. rewrite <- app_assoc. cbn [app].
      destruct b' as [|y b']; [exact Eu|]. apply (Hc a (y :: b') E Ha). discriminate.
Qed.
Lemma split_urls_starts s : forall cur p l, split_urls cur s = p :: l -> forall l1 q l2, l = l1 ++ q :: l2 -> url_at (concat (q :: l2)) = true.
Proof.
  induction s as [|x s IH]; intros cur p l; cbn [split_urls].
  - destruct cur; [discriminate|]. intros [= <- <-] [|? ?] q l2; discriminate.
  - destruct (url_at (x :: s)) eqn:Eu; [|intros E; exact (IH _ _ _ E)]. destruct cur as [|y cur]; [intros E; exact (IH _ _ _ E)|].
    intros [= <- <-] l1 q l2 E. destruct l1 as [|p' l1]; cbn [app] in E.
    + rewrite <- E, split_urls_concat. exact Eu.
    + exact (IH _ _ _ E l1 q l2 eq_refl).
Qed.
Lemma word_piece w q rest : In w [u "http://"; u "https://"]%string -> starts_with w (q ++ rest) = true -> q <> [] -> rest = [] \/ url_at rest = true -> starts_with w q = true.
Proof.
  intros Hw H Hq [->|Hr]; [now rewrite app_nil_r in H|]. apply starts_with_spec in H as [r H].
  destruct (Nat.le_gt_cases (length w) (length q)) as [L|L].
  - apply (f_equal (firstn (length w))) in H. rewrite !firstn_app in H. replace (length w - length q) with 0 in H by lia. rewrite firstn_all, Nat.sub_diag in H. cbn [firstn] in H. rewrite !app_nil_r in H.
    rewrite <- (firstn_skipn (length w) q), H. apply starts_with_app.
  - exfalso. apply (f_equal (skipn (length q))) in H. rewrite !skipn_app, skipn_all, Nat.sub_diag in H. replace (length q - length w) with 0 in H by lia. cbn [app skipn] in H. subst rest.
    assert (0 < length q) by (destruct q; [congruence|cbn; lia]). remember (length q) as k. clear Heqk.
    destruct Hw as [<-|[<-|[]]]; cbn in L; do 8 (destruct k as [|k]; [first [lia|discriminate Hr]|]); lia.
Qed.

(** The pieces together are the URL; no piece is empty; every piece but the first starts with
    http:// or https://; and no piece has another one inside. *)
Theorem C49_url url : concat (split_url url) = url /\ Forall (fun p => p <> []) (split_url url) /\
  (forall p l, split_url url = p :: l -> Forall (fun q => url_at q = true) l) /\
  (forall p a b, In p (split_url url) -> p = a ++ b -> a <> [] -> url_at b = false).
Proof.
  unfold split_url. assert (I : Forall (fun p => p <> [] /\ no_inner p []) (split_urls [] url)).
  { apply split_urls_inner. intros a b E Ha. destruct a; [congruence|discriminate]. }
  rewrite Forall_forall in I. split; [apply split_urls_concat|]. split; [apply Forall_forall; intros p Hp; now apply I|]. split.
  - intros p l E. apply Forall_forall. intros q Hq. pose proof (split_urls_starts _ _ _ _ E) as S. apply in_split in Hq as (l1 & l2 & El).
    pose proof (S l1 q l2 El) as Q. cbn [concat] in Q.
    assert (Hne : q <> []) by (apply I; rewrite E, El; right; apply in_or_app; right; now left).
    assert (R : concat l2 = [] \/ url_at (concat l2) = true).
    { destruct l2 as [|q' l2]; [now left|]. right. apply (S (l1 ++ [q]) q' l2). rewrite El, <- app_assoc. reflexivity. }
    unfold url_at in Q |- *. apply orb_true_iff in Q. apply orb_true_iff. destruct Q as [Q|Q]; [left|right]; (eapply word_piece; [|exact Q|exact Hne|exact R]); cbn; auto.
  - intros p a b Hp E Ha. destruct (I p Hp) as [_ K]. destruct b as [|y b]; [reflexivity|]. specialize (K a (y :: b) E Ha). rewrite app_nil_r in K. apply K. discriminate.
Qed.

(* ---------------------------------------------------------------- *)
(** ** Examples *)
Lemma ascii_classes_ok : classes_ok ascii_space ascii_word ascii_digit.
Proof.
  split.
  - intros x H. unfold ascii_digit in H. unfold ascii_space. apply andb_true_iff in H as [H1 H2]. apply N.leb_le in H1, H2.
    destruct (N.eqb x 32) eqn:E; [apply N.eqb_eq in E; lia|]. destruct (N.leb 9 x && N.leb x 13) eqn:E'; [apply andb_true_iff in E' as [_ E']; apply N.leb_le in E'; lia|].
    destruct (N.leb 28 x && N.leb x 31) eqn:E2; [apply andb_true_iff in E2 as [_ E2]; apply N.leb_le in E2; lia|]. reflexivity.
  - intros x H. cbn in H. intuition (subst; reflexivity).
  - intros x H. cbn in H. intuition (subst; reflexivity).
  - reflexivity.
Qed.
Definition ex_token (s : str) : bool := starts_with (u "PMID"%string) s || starts_with (u "accessed"%string) s.
Definition ex_nopunct (s : str) : str := filter ascii_word s.
Definition ex_find (s : string) := find_doi_start_end ascii_space ascii_word ascii_digit ex_token ex_nopunct ex_nopunct (u s).
(** the label before is not part of the DOI, nor is what follows *)
Example C49_ex_doi : ex_find "doi: 10.1234/abc.5 (PMID 1)." = Ok (Some (5, 18)).
Proof. vm_compute. reflexivity. Qed.
Example C49_ex_pii : ex_find "10.1234/S1-2 S1-2 [pii]" = Ok (Some (0, 12)).
Proof. vm_compute. reflexivity. Qed.
Example C49_ex_twice : ex_find "10.1234/S1 10.1234/S1" = Ok (Some (0, 10)).
Proof. vm_compute. reflexivity. Qed.
Example C49_ex_bracket : ex_find "[10.1234/a.]" = Ok (Some (1, 11)).
Proof. vm_compute. reflexivity. Qed.
Example C49_ex_none : ex_find "10.123/abc" = Ok None.
Proof. vm_compute. reflexivity. Qed.
Example C49_ex_place : doi_place ascii_word ascii_digit (u "doi:"%string) (u "10.1234.5/"%string) 97 [].
Proof.
  split; [exists (u "1234"%string), [u "5"%string]|].
  - split; [reflexivity|]. split; [split; [discriminate|reflexivity]|]. split; [cbn; lia|]. constructor; [split; [discriminate|reflexivity]|constructor].
  - split; [discriminate|]. intros a' y E. change (u "doi:"%string) with (u "doi"%string ++ [58%N]) in E. apply app_inj_tail in E as [_ <-]. reflexivity.
Qed.
Example C49_ex_title : find_article_title_start_end ascii_space ascii_digit (u """A title""; PMC12"%string) = (1, 8).
Proof. vm_compute. reflexivity. Qed.
Example C49_ex_title_comma : find_article_title_start_end ascii_space ascii_digit (u "A title , "%string) = (0, 7).
Proof. vm_compute. reflexivity. Qed.
Example C49_ex_url : split_url (u "see http://a.org/https://b.org"%string) = [u "see "; u "http://a.org/"; u "https://b.org"]%string.
Proof. vm_compute. reflexivity. Qed.
(** One would like the DOI to end with something other than white space: it does not when a
    semicolon is taken away (L312, no strip follows). *)
Theorem C49_space_refuted : exists text i j, find_doi_start_end ascii_space ascii_word ascii_digit ex_token ex_nopunct ex_nopunct text = Ok (Some (i, j)) /\
  i < j /\ option_map ascii_space (nth_error text (j - 1)) = Some true.
Proof. exists (u "10.1234/a ;"%string), 0, 10. split; [vm_compute; reflexivity|]. split; [lia|reflexivity]. Qed.

Print Assumptions C49_doi.
Print Assumptions C49_title.
Print Assumptions C49_url.
Print Assumptions C49_space_refuted.
