(** C131: what the complex matcher compares *)
From Verif Require Import Base ModelTags ModelTokenize ModelTei ModelTeiDoc ModelJoined ModelExtend ModelClusters
  ModelTarget PropTarget ModelReference ModelFuzzyMatch PropFuzzyMatch ModelWordMatch ModelSimpleMatch ModelMatch PropSimpleMatch PropMatch.
Open Scope nat_scope.
Open Scope list_scope.

(* ---------------------------------------------------------------- *)
(** ** Specification *)
(** dashes become hyphens, thin spaces spaces, apostrophes quotes *)
Definition clean_char (c : N) : N :=
  if N.eqb c 8212 || N.eqb c 8211 then 45%N else if N.eqb c 8201 then 32%N else if N.eqb c 39 then 34%N else c.
Definition apos : str := u "&apos;".
Inductive cleaned : str -> str -> Prop :=
| cl_nil : cleaned [] []
| cl_apos s t : cleaned s t -> cleaned (apos ++ s) (34%N :: t)
| cl_char c s t : (forall r, c :: s <> apos ++ r) -> cleaned s t -> cleaned (c :: s) (clean_char c :: t).
(** the characters [isjunk] keeps out: a repeated character, a star, a dot behind a letter, a space or comma behind a dot *)
Definition junk_after (alpha : N -> bool) (p : option N) (c : N) : bool :=
  N.eqb c 42 || match p with
                | Some p => N.eqb p c || (alpha p && N.eqb c 46) || (N.eqb p 46 && (N.eqb c 32 || N.eqb c 44))
                | None => false
                end.
Fixpoint without_junk (alpha : N -> bool) (p : option N) (s : str) : str :=
  match s with [] => [] | c :: s' => (if junk_after alpha p c then [] else [c]) ++ without_junk alpha (Some c) s' end.

Section Alike.
Variable sp alpha : N -> bool.
Variable lower : str -> str.
(** two texts are the same for the matcher *)
Definition reads_alike (a b : str) : Prop := exists c, cleaned (lower a) c /\ cleaned (lower b) c.
Definition all_spaces (s : str) : Prop := Forall (fun c => sp c = true) s.
Definition tok_alike (x y : tok) : Prop :=
  reads_alike (strip sp (tx x)) (strip sp (tx y)) /\ (all_spaces (tx x) <-> all_spaces (tx y)) /\
  (tag x, sub x, ptag x, psub x, ws x) = (tag y, sub y, ptag y, psub y, ws y).
Definition doc_alike (d d' : doc) : Prop := Forall2 (Forall2 tok_alike) d d'.
Definition value_alike (v w : tvalue) : Prop :=
  match v, w with VOne a, VOne b => reads_alike a b | VMany l, VMany l' => Forall2 reads_alike l l' | _, _ => False end.
Definition sub_alike (a b : msub) : Prop :=
  ms_name a = ms_name b /\ ms_bonding a = ms_bonding b /\ value_alike (ms_value a) (ms_value b).
Definition target_alike (a b : mann) : Prop :=
  (ma_name a, ma_multiple a, ma_bonding a, ma_next a) = (ma_name b, ma_multiple b, ma_bonding b, ma_next b) /\
  value_alike (ma_value a) (ma_value b) /\ Forall2 sub_alike (ma_subs a) (ma_subs b).
(** the words of a line that have no tag yet *)
Definition open_words (l : line) : list (nat * tok) :=
  filter (fun p => negb (is_space sp (snd p)) && negb (truthy (tag (snd p)))) (combine (seq 0 (length l)) l).
(** a word as it is compared: its place and its text *)
Definition compared (i : nat) (p : nat * tok) (w : wtoken (nat * nat)) : Prop :=
  w_tok w = (i, fst p) /\ exists c, cleaned (lower (strip sp (tx (snd p)))) c /\ w_str w = without_junk alpha None c.
End Alike.
Definition same_outcome {A} (R : A -> A -> Prop) (x y : res A) : Prop :=
  match x, y with Ok a, Ok b => R a b | Err e, Err e' => e = e' | _, _ => False end.
Definition all_tags (d : doc) : list (list (ostr * ostr)) := map (map (fun t => (tag t, sub t))) d.

(* ---------------------------------------------------------------- *)
(** ** The texts *)
Lemma cleaned_unique s t : cleaned s t -> forall t', cleaned s t' -> t = t'.
Proof.
  induction 1 as [|s t H IH|c s t Hn H IH]; intros t' H'.
  - inversion H'; subst; reflexivity.
  - remember (apos ++ s) as z eqn:Ez. inversion H' as [E|s' t0 H0 E|c' s' t0 Hn' H0 E]; subst z.
    + discriminate.
    + apply app_inv_head in E. subst s'. f_equal. now apply IH.
    + exfalso. exact (Hn' s E).
  - remember (c :: s) as z eqn:Ez. inversion H' as [E|s' t0 H0 E|c' s' t0 Hn' H0 E]; subst z.
    + discriminate.
    + exfalso. exact (Hn s' (eq_sym E)).
    + injection E as -> ->. f_equal. now apply IH.
Qed.
Lemma replace_char a b s : py_replace [a] [b] s = map (fun c => if N.eqb c a then b else c) s.
Proof.
  unfold py_replace. induction s as [|c s IH]; [reflexivity|]. cbn [replace_go map starts_with].
  rewrite (N.eqb_sym c a). destruct (N.eqb a c); cbn [andb length Nat.sub app]; rewrite IH; reflexivity.
Qed.
Definition dash_char (c : N) : N := if N.eqb c 8212 || N.eqb c 8211 then 45%N else if N.eqb c 8201 then 32%N else c.
Definition quote_char (c : N) : N := if N.eqb c 39 then 34%N else c.
Lemma clean_quote c : clean_char c = quote_char (dash_char c).
Proof.
  unfold clean_char, quote_char, dash_char. destruct (N.eqb c 8212 || N.eqb c 8211); [reflexivity|].
  destruct (N.eqb c 8201); reflexivity.
Qed.
Lemma dash_kept c x : dash_char c = x -> x <> 45%N -> x <> 32%N -> c = x.
Proof. unfold dash_char. destruct (N.eqb c 8212 || N.eqb c 8211); [congruence|]. destruct (N.eqb c 8201); congruence. Qed.
Lemma dash_map_inv p : Forall (fun x => x <> 45%N /\ x <> 32%N) p -> forall s r, map dash_char s = p ++ r -> exists r', s = p ++ r' /\ map dash_char r' = r.
Proof.
  induction 1 as [|x p [H1 H2] F IH]; intros s r E; [exists s; auto|]. destruct s as [|c s]; [discriminate|]. cbn [map app] in E.
  injection E as E1 E2. apply dash_kept in E1; [|assumption|assumption]. subst c. destruct (IH s r E2) as (r' & -> & E3). exists r'. auto.
Qed.
Lemma apos_kept : map dash_char apos = apos /\ Forall (fun x => x <> 45%N /\ x <> 32%N) apos.
Proof. split; [reflexivity|]. repeat constructor; discriminate. Qed.
Lemma cleaned_repl z r : repl apos [34%N] z r -> forall s, map dash_char s = z -> cleaned s (map quote_char r).
Proof.
  induction 1 as [|z r H IH|c z r Hs H IH]; intros s E.
  - destruct s; [constructor|discriminate].
  - destruct (dash_map_inv apos (proj2 apos_kept) s z E) as (s' & -> & E'). cbn [map app]. change (quote_char 34) with 34%N. apply cl_apos. now apply IH.
  - destruct s as [|c0 s]; [discriminate|]. cbn [map] in E. injection E as <- E. cbn [map]. rewrite <- clean_quote. apply cl_char; [|now apply IH].
    intros q Eq. assert (X : map dash_char (c0 :: s) = apos ++ map dash_char q) by (rewrite Eq, map_app, (proj1 apos_kept); reflexivity).
    cbn [map] in X. rewrite E in X. assert (Y : starts_with apos (dash_char c0 :: z) = true) by (apply starts_with_spec; eauto). congruence.
Qed.
Lemma dashes s : py_replace [8201%N] (u " ") (py_replace [8211%N] (u "-") (py_replace [8212%N] (u "-") s)) = map dash_char s.
Proof.
  change (u " ") with [32%N]. change (u "-") with [45%N]. rewrite !replace_char, !map_map. apply map_ext. intros c. unfold dash_char.
  destruct (N.eqb_spec c 8212) as [->|N1]; [reflexivity|]. destruct (N.eqb_spec c 8211) as [->|N2]; reflexivity.
Qed.
(** The matcher compares texts in lower case, with dashes, thin spaces, apostrophes and their entities replaced; one way to read them. *)
Theorem C131_text lower s t : cleaned (lower s) t <-> normalise_str lower s = t.
Proof.
  assert (H : cleaned (lower s) (normalise_str lower s)).
  { unfold normalise_str. rewrite dashes. change (u "'") with [39%N]. rewrite (replace_char 39 34).
    apply (cleaned_repl _ _ (py_replace_repl apos [34%N] (map dash_char (lower s)) ltac:(discriminate)) _ eq_refl). }
  split; [intros H'; now apply (cleaned_unique _ _ H)|intros <-; exact H].
Qed.
Lemma alike_normal lower a b : reads_alike lower a b <-> normalise_str lower a = normalise_str lower b.
Proof.
  split; [intros (c & H1 & H2); apply C131_text in H1, H2; congruence|].
  intros E. exists (normalise_str lower a). split; apply C131_text; [reflexivity|now symmetry].
Qed.
Lemma without_keep alpha s : forall s' pre p, s = pre ++ s' -> p = match pre with [] => None | _ => Some (last pre 0%N) end ->
  keep_from (default_junk_at alpha s) (length pre) s' = without_junk alpha p s'.
Proof.
  induction s' as [|c s' IH]; intros pre p E Ep; [reflexivity|]. cbn [keep_from without_junk].
  assert (J : default_junk_at alpha s (length pre) = junk_after alpha p c).
  { assert (C : nth (length pre) s 0%N = c) by (rewrite E, app_nth2, Nat.sub_diag by lia; reflexivity).
    unfold default_junk_at, junk_after. cbv zeta. rewrite C. subst p.
    destruct pre as [|x pre]; [reflexivity|]. cbn [length].
    assert (L : nth (length pre) s 0%N = last (x :: pre) 0%N).
    { rewrite E. rewrite app_nth1 by (cbn; lia). clear. revert x. induction pre as [|y pre IH]; intros x; [reflexivity|].
      change (last (x :: y :: pre) 0%N) with (last (y :: pre) 0%N). rewrite <- IH. reflexivity. }
    rewrite L. reflexivity. }
  rewrite J. assert (K : keep_from (default_junk_at alpha s) (S (length pre)) s' = without_junk alpha (Some c) s').
  { replace (S (length pre)) with (length (pre ++ [c])) by (rewrite app_length; cbn; lia). apply IH; [now rewrite <- app_assoc|].
    rewrite last_last. destruct pre; reflexivity. }
  rewrite K. destruct (junk_after alpha p c); reflexivity.
Qed.
Lemma njstr_spec alpha lower s : njstr alpha lower s = Ok (without_junk alpha None (normalise_str lower s)).
Proof. unfold njstr, dj, nstr. rewrite C26_default. f_equal. now apply (without_keep alpha _ _ []). Qed.

(* ---------------------------------------------------------------- *)
(** ** The choices *)
Section C131.
Variable sp alpha : N -> bool.
Variable lower : str -> str.
Notation wj := (wrap_junk sp alpha lower).

Lemma open_indices d i l : nth_error d i = Some l -> forall j l', skipn j l = l' ->
  filter (untagged d) (word_indices sp i j l') = map (fun p => (i, fst p)) (filter (fun p => negb (is_space sp (snd p)) && negb (truthy (tag (snd p)))) (combine (seq j (length l')) l')).
Proof.
  intros Hl j l'. revert j. induction l' as [|t l' IH]; intros j E; [reflexivity|]. cbn [word_indices length seq combine filter snd].
  assert (Hj : nth_error l j = Some t).
  { rewrite <- (firstn_skipn j l), E, nth_error_app2 by apply firstn_le_length.
    assert (j < length l) by (apply (f_equal (@length _)) in E; rewrite skipn_length in E; cbn in E; lia).
    rewrite firstn_length_le, Nat.sub_diag by lia. reflexivity. }
  assert (E' : skipn (S j) l = l').
  { change l' with (skipn 1 (t :: l')). rewrite <- E. clear. revert l. induction j as [|j IH]; intros [|x l]; try reflexivity. cbn [skipn]. apply IH. }
  assert (U : untagged d (i, j) = negb (truthy (tag t))) by (unfold untagged, main_tag, at_pos, doc, line in *; cbn [fst snd]; now rewrite Hl, Hj).
  destruct (is_space sp t); cbn [app negb andb]; [now apply IH|]. cbn [filter]. rewrite U. destruct (negb (truthy (tag t))); cbn [map fst]; [f_equal|]; now apply IH.
Qed.
Lemma wrap_junk_spec d i l q : nth_error d i = Some l ->
  wj d (map (fun p => (i, fst p)) (open_words sp l)) = Ok q -> Forall2 (compared sp alpha lower i) (open_words sp l) q.
Proof.
  intros Hl. unfold wrap_junk. intros H.
  assert (F : forall ps, incl ps (open_words sp l) -> wrap sp (fun s => s) d (map (fun p => (i, fst p)) ps) =
     map (fun p => mkW (i, fst p) (strip sp (tx (snd p))) (match ws (snd p) with Some w => w | None => u " " end)) ps).
  { induction ps as [|[j t] ps IH]; intros Hi; [reflexivity|]. cbn [map wrap flat_map fst snd].
    assert (Hj : nth_error l j = Some t).
    { assert (I : In (j, t) (open_words sp l)) by (apply Hi; now left). apply filter_In in I as [I _].
      clear -I. revert I. assert (G : forall l k, In (j, t) (combine (seq k (length l)) l) -> k <= j /\ nth_error l (j - k) = Some t).
      { clear l. induction l as [|x l IH]; intros k H; [contradiction|]. cbn [length seq combine] in H. destruct H as [H|H].
        - injection H as <- <-. split; [lia|]. now rewrite Nat.sub_diag.
        - apply IH in H as [H1 H2]. split; [lia|]. replace (j - k) with (S (j - S k)) by lia. exact H2. }
      intros I. apply G in I as [_ I]. now rewrite Nat.sub_0_r in I. }
    unfold at_pos, doc, line in *. cbn [fst snd]. rewrite Hl, Hj. cbn [app]. f_equal. apply IH. intros x Hx. apply Hi. now right. }
  rewrite (F _ (incl_refl _)) in H. clear F Hl. revert q H. induction (open_words sp l) as [|[j t] ps IH]; intros q H; cbn [map mapM] in H.
  - injection H as <-. constructor.
  - cbn [w_str w_tok w_ws fst snd] in H. rewrite njstr_spec in H. cbn [bind] in H. destruct (mapM _ (map _ ps)) as [q'|] eqn:E; [|discriminate]. cbn [bind] in H.
    injection H as <-. constructor; [|now apply IH]. split; [reflexivity|]. exists (normalise_str lower (strip sp (tx t))). split; [now apply C131_text|reflexivity].
Qed.
(** The choices: the lines that still have words without tag, in order and counted, with these words. *)
Definition open_lines (d : doc) : list (nat * list (nat * tok)) :=
  filter (fun p => match snd p with [] => false | _ => true end) (combine (seq 0 (length d)) (map (open_words sp) d)).
Theorem C131_choices d : exists seqs, sequences sp alpha lower d = Ok seqs /\
  map sq_pos seqs = map Z.of_nat (seq 0 (length seqs)) /\
  Forall2 (fun p s => Forall2 (compared sp alpha lower (fst p)) (snd p) (sq_words s)) (open_lines d) seqs.
Proof.
  assert (I : initial_sequences sp d = map (fun p => map (fun x => (fst p, fst x)) (snd p)) (open_lines d)).
  { unfold initial_sequences, open_lines.
    enough (G : forall k d', skipn k d = d' -> filter nonempty (map (filter (untagged d)) (line_words sp k d')) =
       map (fun p => map (fun x => (fst p, fst x)) (snd p)) (filter (fun p => match snd p with [] => false | _ => true end) (combine (seq k (length d')) (map (open_words sp) d')))) by exact (G 0 d eq_refl).
    intros k d'. revert k. induction d' as [|l d' IH]; intros k E; [reflexivity|]. cbn [line_words map filter length seq combine snd].
    assert (Hk : nth_error d k = Some l).
    { rewrite <- (firstn_skipn k d), E, nth_error_app2 by apply firstn_le_length.
      assert (k < length d) by (apply (f_equal (@length _)) in E; rewrite skipn_length in E; cbn in E; lia).
      rewrite firstn_length_le, Nat.sub_diag by lia. reflexivity. }
    assert (E' : skipn (S k) d = d').
    { change d' with (skipn 1 (l :: d')). rewrite <- E. clear. revert d. induction k as [|k IH]; intros [|x d]; try reflexivity. cbn [skipn]. apply IH. }
    rewrite (open_indices d k l Hk 0 l eq_refl). fold (open_words sp l). rewrite (IH (S k) E').
    destruct (open_words sp l) as [|x ws]; [reflexivity|]. cbn [map nonempty fst snd]. reflexivity. }
  unfold sequences. rewrite I. assert (T : forall l, exists r, mapM (wj d) l = Ok r).
  { intros l. apply mapM_total. intros ps. unfold wrap_junk. apply mapM_total. intros t. rewrite njstr_spec. cbn. eauto. }
  destruct (T (map (fun p => map (fun x => (fst p, fst x)) (snd p)) (open_lines d))) as [r Er]. rewrite Er. cbn [bind]. exists (with_positions 0 r).
  split; [reflexivity|].
  assert (P : forall r k, map sq_pos (with_positions (Z.of_nat k) r) = map Z.of_nat (seq k (length (with_positions (Z.of_nat k) r))) /\ map sq_words (with_positions (Z.of_nat k) r) = r).
  { clear. induction r as [|q r IH]; intros k; [split; reflexivity|]. cbn [with_positions map length seq sq_pos sq_words].
    replace (Z.of_nat k + 1)%Z with (Z.of_nat (S k)) by lia. destruct (IH (S k)) as [H1 H2]. rewrite H1, H2. auto. }
  destruct (P r 0) as [P1 P2]. change (Z.of_nat 0) with 0%Z in *. split; [exact P1|].
  apply mapM_Forall2 in Er.
  assert (L : Forall (fun p => exists l, nth_error d (fst p) = Some l /\ snd p = open_words sp l) (open_lines d)).
  { apply Forall_forall. intros p Hp. apply filter_In in Hp as [Hp _]. revert Hp.
    assert (G : forall d k, In p (combine (seq k (length d)) (map (open_words sp) d)) -> k <= fst p /\ exists l, nth_error d (fst p - k) = Some l /\ snd p = open_words sp l).
    { clear. induction d as [|x d IH]; intros k H; [contradiction|]. cbn [length seq combine map] in H. destruct H as [<-|H].
      - cbn [fst snd]. split; [lia|]. exists x. now rewrite Nat.sub_diag.
      - apply IH in H as (H1 & l & H2 & H3). split; [lia|]. exists l. split; [|exact H3]. replace (fst p - k) with (S (fst p - S k)) by lia. exact H2. }
    intros Hp. apply G in Hp as (_ & l & Hp). exists l. now rewrite Nat.sub_0_r in Hp. }
  rewrite <- P2 in Er. revert Er L. clear. generalize (with_positions 0 r) as seqs. generalize (open_lines d) as lines.
  induction lines as [|[i ws] lines IH]; intros seqs H L; destruct seqs as [|s seqs]; inversion H; subst; constructor; [|apply IH; [assumption|now inversion L]].
  inversion L as [|? ? (l & L1 & L2) _]; subst. cbn [fst snd] in *. subst ws. now apply (wrap_junk_spec d i l).
Qed.

(* ---------------------------------------------------------------- *)
(** ** Alike documents *)
Definition tok_same (x y : tok) : Prop :=
  normalise_str lower (strip sp (tx x)) = normalise_str lower (strip sp (tx y)) /\ is_space sp x = is_space sp y /\
  tag x = tag y /\ sub x = sub y /\ ptag x = ptag y /\ psub x = psub y /\ ws x = ws y.
Notation D := (Forall2 (Forall2 tok_same)).
Lemma space_spec t : is_space sp t = true <-> all_spaces sp (tx t).
Proof. unfold is_space, blank, all_spaces. rewrite forallb_forall, Forall_forall. reflexivity. Qed.
Lemma tok_alike_same x y : tok_alike sp lower x y <-> tok_same x y.
Proof.
  unfold tok_alike, tok_same. rewrite alike_normal, <- !space_spec. split.
  - intros (H1 & H2 & E). injection E as -> -> -> -> ->. split; [exact H1|]. split; [|auto 10].
    destruct (is_space sp x), (is_space sp y); try reflexivity; [symmetry|]; apply H2; reflexivity.
  - intros (H1 & -> & -> & -> & -> & -> & ->). split; [exact H1|]. split; reflexivity.
Qed.
Lemma Forall2_weaken {A B} (R S : A -> B -> Prop) l l' : (forall x y, R x y -> S x y) -> Forall2 R l l' -> Forall2 S l l'.
Proof. intros H. induction 1; constructor; auto. Qed.
Lemma doc_alike_same d d' : doc_alike sp lower d d' <-> D d d'.
Proof.
  unfold doc_alike. split; intros H; (eapply Forall2_weaken; [|exact H]); cbn beta; intros l l' Hl; (eapply Forall2_weaken; [|exact Hl]); apply tok_alike_same.
Qed.
Lemma Forall2_nth {A B} (R : A -> B -> Prop) l l' : Forall2 R l l' -> forall n,
  match nth_error l n, nth_error l' n with Some x, Some y => R x y | None, None => True | _, _ => False end.
Proof. induction 1 as [|x y l l' Hx H IH]; intros [|n]; cbn [nth_error]; auto. apply IH. Qed.
Lemma at_pos_same d d' p : D d d' -> match at_pos d p, at_pos d' p with Some x, Some y => tok_same x y | None, None => True | _, _ => False end.
Proof.
  intros H. unfold at_pos. pose proof (Forall2_nth _ _ _ H (fst p)) as X. unfold doc, line in *.
  destruct (nth_error d (fst p)) as [l|], (nth_error d' (fst p)) as [l'|]; try exact I; try contradiction. exact (Forall2_nth _ _ _ X (snd p)).
Qed.
Lemma main_tag_same d d' p : D d d' -> main_tag d p = main_tag d' p.
Proof. intros H. pose proof (at_pos_same d d' p H) as X. unfold main_tag. destruct (at_pos d p), (at_pos d' p); try contradiction; [apply X|reflexivity]. Qed.
Lemma wrap_same f d d' ps : D d d' -> (forall a b, normalise_str lower a = normalise_str lower b -> f a = f b) -> wrap sp f d ps = wrap sp f d' ps.
Proof.
  intros H Hf. induction ps as [|p ps IH]; [reflexivity|]. cbn [wrap flat_map]. unfold wrap in IH. rewrite IH. f_equal.
  pose proof (at_pos_same d d' p H) as X. destruct (at_pos d p), (at_pos d' p); try contradiction; [|reflexivity].
  destruct X as (X1 & _ & _ & _ & _ & _ & ->). now rewrite (Hf _ _ X1).
Qed.
Lemma wrap_junk_same d d' ps : D d d' -> wj d ps = wj d' ps.
Proof.
  intros H. unfold wrap_junk. induction ps as [|p ps IH]; [reflexivity|]. cbn [wrap flat_map]. unfold wrap in IH.
  pose proof (at_pos_same d d' p H) as X. destruct (at_pos d p), (at_pos d' p); try contradiction; [|exact IH].
  cbn [app mapM w_str w_tok w_ws]. rewrite IH. destruct X as (X1 & _ & _ & _ & _ & _ & ->). rewrite !njstr_spec, X1. reflexivity.
Qed.
Lemma word_indices_same i l l' : Forall2 tok_same l l' -> forall j, word_indices sp i j l = word_indices sp i j l'.
Proof. induction 1 as [|x y l l' (_ & Hx & _) H IH]; intros j; [reflexivity|]. cbn [word_indices]. now rewrite Hx, IH. Qed.
Lemma line_words_same d d' : D d d' -> forall i, line_words sp i d = line_words sp i d'.
Proof. induction 1 as [|l l' d d' Hl H IH]; intros i; [reflexivity|]. cbn [line_words]. now rewrite (word_indices_same i l l' Hl), IH. Qed.
Lemma sequences_same d d' : D d d' -> sequences sp alpha lower d = sequences sp alpha lower d'.
Proof.
  intros H. unfold sequences, initial_sequences. rewrite (line_words_same d d' H).
  assert (E : forall l : list (list (nat * nat)), map (filter (untagged d)) l = map (filter (untagged d')) l).
  { intros l. apply map_ext. intros ps. apply filter_ext. intros p. unfold untagged. now rewrite (main_tag_same d d' p H). }
  rewrite E. assert (M : forall l, mapM (wj d) l = mapM (wj d') l).
  { induction l as [|ps l IH]; [reflexivity|]. cbn [mapM]. rewrite (wrap_junk_same d d' ps H), IH. reflexivity. }
  rewrite M. reflexivity.
Qed.
Lemma update_same {A} (R : A -> A -> Prop) f g n l l' : Forall2 R l l' -> (forall x y, R x y -> R (f x) (g y)) -> Forall2 R (update_nth n f l) (update_nth n g l').
Proof. intros H Hf. revert n. induction H as [|x y l l' Hx H IH]; intros [|n]; cbn [update_nth]; constructor; auto. Qed.
Lemma clear_same lv j l l' : Forall2 tok_same l l' -> Forall2 tok_same (clear_same_preserved lv j l) (clear_same_preserved lv j l').
Proof.
  intros H. unfold clear_same_preserved. pose proof (Forall2_nth _ _ _ H j) as X. unfold line in *.
  destruct (nth_error l j) as [x|], (nth_error l' j) as [y|]; try contradiction; [|exact H].
  assert (P : forall x y, tok_same x y -> get_preserved_tag lv x = get_preserved_tag lv y) by (intros a b (_ & _ & _ & _ & P1 & P2 & _); destruct lv; assumption).
  rewrite (P _ _ X). destruct (truthy _); [|exact H]. clear X. induction H as [|a b l l' Ha H IH]; [constructor|]. cbn [map]. constructor; [|exact IH].
  rewrite (P _ _ Ha). destruct (ostreq _ _); [|exact Ha]. destruct Ha as (A1 & A2 & A3 & A4 & A5 & A6 & A7). destruct lv; repeat split; cbn; assumption || reflexivity.
Qed.
Lemma set_tag_same lv p v d d' : D d d' -> D (set_tag sp lv p v d) (set_tag sp lv p v d').
Proof.
  intros H. unfold set_tag. apply update_same; [exact H|]. intros l l' Hl. unfold set_tag_line. pose proof (Forall2_nth _ _ _ Hl (snd p)) as X. unfold line in *.
  destruct (nth_error l (snd p)) as [x|], (nth_error l' (snd p)) as [y|]; try contradiction; [|exact Hl].
  assert (U : Forall2 tok_same (update_nth (snd p) (set_tag_only lv v) l) (update_nth (snd p) (set_tag_only lv v) l')).
  { apply update_same; [exact Hl|]. intros a b (A1 & A2 & A3 & A4 & A5 & A6 & A7). destruct lv; repeat split; cbn; assumption || reflexivity. }
  destruct X as (_ & -> & X1 & X2 & X3 & X4 & _). destruct (is_space sp y); [exact U|].
  replace (tag_or_preserved lv x) with (tag_or_preserved lv y) by (destruct lv; unfold tag_or_preserved, get_tag, get_preserved_tag; cbn; congruence).
  destruct (ostreq _ _); [exact U|]. destruct lv; [apply clear_same|]; now apply clear_same.
Qed.
End C131.

Lemma outcome_bind {A B} (R : A -> A -> Prop) (S : B -> B -> Prop) x y f g : same_outcome R x y -> (forall a b, R a b -> same_outcome S (f a) (g b)) ->
  same_outcome S (bind x f) (bind y g).
Proof. destruct x, y; cbn; intros H Hf; try contradiction; auto. Qed.
Lemma outcome_eq {A} (x : res A) : same_outcome eq x x.
Proof. destruct x; reflexivity. Qed.
Lemma outcome_fold {A B} (R : B -> B -> Prop) (S : A -> A -> Prop) f g l l' : Forall2 S l l' -> (forall b b' x y, R b b' -> S x y -> same_outcome R (f b x) (g b' y)) ->
  forall b b', R b b' -> same_outcome R (foldM f b l) (foldM g b' l').
Proof.
  intros H Hf. induction H as [|x y l l' Hx H IH]; intros b b' Hb; cbn [foldM]; [exact Hb|].
  apply (outcome_bind R); [now apply Hf|]. intros c c' Hc. now apply IH.
Qed.
Lemma runs_ext {B} (f g : B -> bool) : (forall x, f x = g x) -> forall l cur, runs_go f cur l = runs_go g cur l.
Proof. intros H. induction l as [|x l IH]; intros cur; [reflexivity|]. cbn [runs_go]. rewrite H. destruct (negb (g x)); [apply IH|]. now rewrite !IH. Qed.
Lemma untagged_ext {B} (f g : B -> bool) l : (forall x, f x = g x) -> untagged_sub_sequences f l = untagged_sub_sequences g l.
Proof. intros H. unfold untagged_sub_sequences. rewrite (filter_ext _ _ H). now rewrite (runs_ext f g H). Qed.

Section Run.
Variable sp alpha : N -> bool.
Variable lower : str -> str.
Variable blocks : str -> str -> res (list block).
Variable seq_filter choice_filter : fm_filter.
Variable max_gap : Z.
Variable begin_prefix : bool.
Notation D := (Forall2 (Forall2 (tok_same sp lower))).
Notation find_next := (find_next sp alpha blocks seq_filter choice_filter max_gap).
Notation apply_sub := (apply_sub sp alpha lower blocks seq_filter choice_filter max_gap begin_prefix).
Notation apply_subs := (apply_subs sp alpha lower blocks seq_filter choice_filter max_gap begin_prefix).
Notation apply_match := (apply_match sp alpha lower blocks seq_filter choice_filter max_gap begin_prefix).
Notation apply_matches := (apply_matches sp alpha lower blocks seq_filter choice_filter max_gap begin_prefix).
Notation target_loop := (target_loop sp alpha lower blocks seq_filter choice_filter max_gap begin_prefix).
Notation target_step := (target_step sp alpha lower blocks seq_filter choice_filter max_gap begin_prefix).
Notation annotate := (matching_annotate sp alpha lower blocks seq_filter choice_filter max_gap begin_prefix).

Lemma sub_sequences_same d d' s : D d d' -> sub_sequences d s = sub_sequences d' s.
Proof. intros H. unfold sub_sequences. f_equal. apply untagged_ext. intros t. now rewrite (main_tag_same sp lower d d' _ H). Qed.
Lemma pull_same d d' g : D d d' -> pull d g = pull d' g.
Proof.
  intros H. unfold pull. destruct (g_buffer g); [|reflexivity]. induction (g_rest g) as [|s r IH]; [reflexivity|]. cbn [pull_rest].
  rewrite (sub_sequences_same d d' s H), IH. reflexivity.
Qed.
Lemma fill_same d d' : D d d' -> forall n log g, fill d n log g = fill d' n log g.
Proof. intros H. induction n as [|n IH]; intros log g; [reflexivity|]. cbn [fill]. rewrite (pull_same d d' g H). destruct (pull d' g) as [[x|] g']; [apply IH|reflexivity]. Qed.
Lemma advance_same d d' k m f : D d d' -> advance d k m f = advance d' k m f.
Proof. intros H. unfold advance. now rewrite (fill_same d d' H). Qed.
Lemma pairs_same d d' f : D d d' -> pairs d f = pairs d' f.
Proof.
  intros H. unfold pairs, all_items. assert (E : forall l, flat_map (sub_sequences d) l = flat_map (sub_sequences d') l).
  { induction l as [|s l IH]; [reflexivity|]. cbn [flat_map]. now rewrite (sub_sequences_same d d' s H), IH. }
  now rewrite E.
Qed.
Lemma find_next_same is_sub name bonding value d d' f matched : D d d' ->
  find_next is_sub name bonding value d f matched = find_next is_sub name bonding value d' f matched.
Proof.
  intros H. unfold ModelMatch.find_next. rewrite (pairs_same d d' f H). destruct value as [s|l].
  - destruct (do_find _ _ _ _ _ _ _ _ _ _ _ _) as [[[ms mt] k]|]; cbn [bind]; [|reflexivity]. now rewrite (advance_same d d' _ _ _ H).
  - destruct (find_list _ _ _ _ _ _ _ _ _ _) as [[[ms mt] ks]|]; cbn [bind]; [|reflexivity]. now rewrite (advance_same d d' _ _ _ H).
Qed.
Lemma value_same v w : value_alike lower v w -> nstr_value lower v = nstr_value lower w /\ njstr_value alpha lower v = njstr_value alpha lower w.
Proof.
  assert (J : forall a b, reads_alike lower a b -> nstr lower a = nstr lower b /\ njstr alpha lower a = njstr alpha lower b).
  { intros a b H. apply alike_normal in H. split; [exact H|]. now rewrite !njstr_spec, H. }
  destruct v as [a|l], w as [b|l']; cbn [value_alike nstr_value njstr_value]; try contradiction.
  - intros H. apply J in H as [-> ->]. auto.
  - intros H. assert (E : map (nstr lower) l = map (nstr lower) l' /\ mapM (njstr alpha lower) l = mapM (njstr alpha lower) l').
    { induction H as [|a b l l' Ha H [IH1 IH2]]; [split; reflexivity|]. cbn [map mapM]. apply J in Ha as [-> ->]. now rewrite IH1, IH2. }
    destruct E as [-> ->]. auto.
Qed.
Definition R1 (x y : doc * list Z) : Prop := D (fst x) (fst y) /\ snd x = snd y.
Lemma fold_sub_same name l : forall d d', D d d' ->
  D (fold_left (fun d x => set_tag sp LSub (fst x) (tag_of begin_prefix name (snd x)) d) l d)
    (fold_left (fun d x => set_tag sp LSub (fst x) (tag_of begin_prefix name (snd x)) d) l d').
Proof. induction l as [|x l IH]; intros d d' H; cbn [fold_left]; [exact H|]. apply IH. now apply set_tag_same. Qed.
Lemma apply_sub_same s st st' a b : R1 st st' -> sub_alike lower a b -> same_outcome R1 (apply_sub s st a) (apply_sub s st' b).
Proof.
  intros [H1 H2] (N & B & V). unfold ModelMatch.apply_sub. rewrite N, B, (proj1 (value_same _ _ V)), H2, (find_next_same _ _ _ _ _ _ _ _ H1).
  destruct (find_next _ _ _ _ _ _ _) as [[[ms mt] f]|]; cbn [bind]; [|reflexivity]. split; [|reflexivity]. cbn [fst]. now apply fold_sub_same.
Qed.
Lemma apply_subs_same subs subs' ps d d' : Forall2 (sub_alike lower) subs subs' -> D d d' -> same_outcome D (apply_subs subs ps d) (apply_subs subs' ps d').
Proof.
  intros Hs H. unfold ModelMatch.apply_subs. apply (outcome_bind R1); [|intros a b [X _]; exact X].
  replace (sub_sequence sp lower d ps) with (sub_sequence sp lower d' ps)
    by (unfold sub_sequence; f_equal; symmetry; apply (wrap_same sp lower); [exact H|intros ? ? E; exact E]).
  apply (outcome_fold R1 (sub_alike lower)); [exact Hs| |split; [exact H|reflexivity]]. intros. now apply apply_sub_same.
Qed.
Definition R2 (x y : doc * bool * list (nat * nat)) : Prop := D (fst (fst x)) (fst (fst y)) /\ snd (fst x) = snd (fst y) /\ snd x = snd y.
Lemma apply_token_same name ps : forall st st', R2 st st' -> R2 (fold_left (apply_token sp begin_prefix name) ps st) (fold_left (apply_token sp begin_prefix name) ps st').
Proof.
  induction ps as [|p ps IH]; intros [[d f] l] [[d' f'] l'] H; cbn [fold_left]; [exact H|]. apply IH. destruct H as (H1 & H2 & H3). cbn [fst snd] in *. subst f' l'.
  unfold apply_token. rewrite (main_tag_same sp lower d d' p H1). destruct (truthy _); repeat split; auto. cbn [fst]. now apply set_tag_same.
Qed.
Lemma apply_match_same a b st st' m : target_alike lower a b -> R2 st st' -> same_outcome R2 (apply_match a st m) (apply_match b st' m).
Proof.
  intros (N & V & S) H. injection N as N _ _ _. unfold ModelMatch.apply_match. rewrite N.
  pose proof (apply_token_same (ma_name b) (match_tokens m) st st' H) as X.
  destruct (fold_left _ _ st) as [[d1 f1] l1], (fold_left _ _ st') as [[d2 f2] l2]. destruct X as (X1 & X2 & X3). cbn [fst snd] in *. subst f2 l2.
  destruct S as [|x y sx sy Hxy S]; [repeat split; auto|]. apply (outcome_bind D); [apply apply_subs_same; [now constructor|exact X1]|].
  intros e e' He. repeat split; auto.
Qed.
Lemma apply_matches_same a b ms d d' : target_alike lower a b -> D d d' -> same_outcome D (apply_matches a ms d) (apply_matches b ms d').
Proof.
  intros T H. unfold ModelMatch.apply_matches. apply (outcome_bind R2); [|intros x y (X & _); exact X].
  apply (outcome_fold R2 eq); [|intros x y m m' Hxy <-; now apply apply_match_same|repeat split; auto].
  induction ms; constructor; auto.
Qed.
Notation cond := (option (mann * list smatch)).
Definition cond_same (x y : cond) : Prop :=
  match x, y with Some (a, m), Some (b, m') => target_alike lower a b /\ m = m' | None, None => True | _, _ => False end.
Definition R3 {A} (x y : doc * cond * A) : Prop := D (fst (fst x)) (fst (fst y)) /\ cond_same (snd (fst x)) (snd (fst y)) /\ snd x = snd y.
Lemma loop_same a b value : target_alike lower a b -> forall fuel d d' cm cm' f matched, D d d' -> cond_same cm cm' ->
  same_outcome R3 (target_loop fuel a value d cm f matched) (target_loop fuel b value d' cm' f matched).
Proof.
  intros T. pose proof T as (N & V & S). injection N as N1 N2 N3 N4.
  induction fuel as [|fuel IH]; intros d d' cm cm' f matched H Hc; cbn [ModelMatch.target_loop]; [reflexivity|].
  rewrite N1, N2, N3, N4, (find_next_same _ _ _ _ _ _ _ _ H). destruct (find_next _ _ _ _ _ _ _) as [[[found mt] f']|]; cbn [bind]; [|reflexivity].
  destruct (sorted_matches found) as [|m ms]; [repeat split; auto|].
  apply (outcome_bind D).
  { destruct cm as [[ca cms]|], cm' as [[ca' cms']|]; cbn in Hc; try contradiction; [|exact H]. destruct Hc as [Hc <-].
    destruct (_ <=? _)%Z; [now apply apply_matches_same|exact H]. }
  intros d1 d1' H1. apply (outcome_bind (fun x y : doc * cond => D (fst x) (fst y) /\ cond_same (snd x) (snd y))).
  { destruct (ma_next b); [split; [exact H1|split; [exact T|reflexivity]]|]. apply (outcome_bind D); [now apply apply_matches_same|]. intros d2 d2' H2. split; [exact H2|exact Hc]. }
  intros [d2 cm2] [d2' cm2'] [H2 H3]. cbn [fst snd] in *. destruct (ma_multiple b); [now apply IH|repeat split; auto].
Qed.
Lemma step_same fuel seqs st st' a b : R3 st st' -> target_alike lower a b -> same_outcome R3 (target_step fuel seqs st a) (target_step fuel seqs st' b).
Proof.
  destruct st as [[d cm] mm], st' as [[d' cm'] mm']. intros (H1 & H2 & H3) T. cbn [fst snd] in *. subst mm'. unfold ModelMatch.target_step.
  pose proof T as (N & V & S). injection N as N1 N2 N3 N4. rewrite (proj2 (value_same _ _ V)), N1, N3.
  destruct (njstr_value alpha lower (ma_value b)) as [value|]; cbn [bind]; [|reflexivity].
  apply (outcome_bind R3); [now apply loop_same|]. intros [[d1 cm1] mt] [[d1' cm1'] mt'] (X1 & X2 & X3). cbn [fst snd] in *. subst mt'. repeat split; auto.
Qed.
(** Texts enter into the annotations only as they are read: two documents and two lists of
    targets that read alike get the same tags, or the same error. *)
Theorem C131_alike fuel targets targets' d d' : Forall2 (target_alike lower) targets targets' -> doc_alike sp lower d d' ->
  same_outcome (doc_alike sp lower) (annotate fuel targets d) (annotate fuel targets' d').
Proof.
  intros Ht H. apply doc_alike_same in H. unfold matching_annotate. rewrite (sequences_same sp alpha lower d d' H).
  destruct (sequences sp alpha lower d') as [seqs|]; cbn [bind]; [|reflexivity].
  apply (outcome_bind R3); [|intros x y (X & _); apply doc_alike_same; exact X].
  apply (outcome_fold R3 (target_alike lower)); [exact Ht| |repeat split; auto]. intros. now apply step_same.
Qed.
Lemma alike_tags d d' : doc_alike sp lower d d' -> all_tags d = all_tags d'.
Proof.
  unfold all_tags. induction 1 as [|l l' d d' Hl H IH]; [reflexivity|]. cbn [map]. rewrite IH. f_equal. clear -Hl.
  induction Hl as [|x y l l' (_ & _ & E) H IH]; [reflexivity|]. cbn [map]. injection E as -> -> _ _ _. now rewrite IH.
Qed.
Theorem C131_tags fuel targets targets' d d' r :
  Forall2 (target_alike lower) targets targets' -> doc_alike sp lower d d' ->
  annotate fuel targets d = Ok r -> exists r', annotate fuel targets' d' = Ok r' /\ all_tags r' = all_tags r.
Proof.
  intros Ht H E. pose proof (C131_alike fuel targets targets' d d' Ht H) as X. rewrite E in X. cbn in X.
  destruct (annotate fuel targets' d') as [r'|]; [|contradiction]. exists r'. split; [reflexivity|]. symmetry. now apply alike_tags.
Qed.
End Run.

(* ---------------------------------------------------------------- *)
(** ** Examples *)
Example C131_ex_text : cleaned (lower_ascii (u "It&apos;s O'X" ++ [8211%N] ++ u "y")) (u "it" ++ [34%N] ++ u "s o" ++ [34%N] ++ u "x-y").
Proof. apply C131_text. vm_compute. reflexivity. Qed.
Definition alike_doc : doc := [[plain " ABOUT"; plain "Thin" ]; [plain "a"; plain "study"]].
Definition alike_doc' : doc := [[plain "about"; plain "thin"]; [plain "A"; plain "STUDY"]].
Example C131_ex_choices : sequences ascii_space ascii_alpha lower_ascii
    [[plain "J."; plain "Smith*"; word "x" (Some (u "old"))]; [word "y" (Some (u "old"))]; [plain "A"]] =
  Ok [mkSeqp [mkW (0, 0) (u "j") (u " "); mkW (0, 1) (u "smith") (u " ")] 0; mkSeqp [mkW (2, 0) (u "a") (u " ")] 1].
Proof. vm_compute. reflexivity. Qed.
Example C131_ex_alike : doc_alike ascii_space lower_ascii alike_doc alike_doc' /\
  Forall2 (target_alike lower_ascii) [title "About thin a study"] [title "ABOUT Thin a Study"].
Proof.
  split.
  - apply doc_alike_same. unfold alike_doc, alike_doc'. repeat (apply Forall2_cons || apply Forall2_nil); unfold tok_same; vm_compute; repeat split.
  - constructor; [|constructor]. split; [reflexivity|]. split; [apply alike_normal; vm_compute; reflexivity|]. constructor; [|constructor].
    split; [reflexivity|]. split; [reflexivity|]. apply alike_normal. vm_compute. reflexivity.
Qed.
Example C131_ex : exists r, annotate_ex 10 [title "ABOUT Thin a Study"] alike_doc' = Ok r /\
  all_tags r = [[(Some (u "b-title"), None); (Some (u "i-title"), None)];
                [(Some (u "i-title"), None); (Some (u "i-title"), Some (u "b-t"))]].
Proof.
  destruct (annotate_ex 10 [title "About thin a study"] alike_doc) as [r|] eqn:E; [|vm_compute in E; discriminate].
  destruct (C131_tags _ _ _ _ _ _ _ _ 10 _ _ _ _ r (proj2 C131_ex_alike) (proj1 C131_ex_alike) E) as (r' & E1 & E2).
  exists r'. split; [exact E1|]. rewrite E2. vm_compute in E. injection E as <-. vm_compute. reflexivity.
Qed.

Print Assumptions C131_text.
Print Assumptions C131_choices.
Print Assumptions C131_alike.
Print Assumptions C131_tags.
