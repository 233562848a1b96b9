(** C105: the functions written out by hand in the models are what the short regular expressions of
    the code do. *)
From Verif Require Import Base ModelJoined ModelTokenize ModelTei ModelTarget ModelSegmentation ModelSimpleMatch ModelCommands ModelJatsText ModelSource ModelRegex ModelPatterns ModelShort
  PropRegex PropRegexRun PropRegexParse.
From Verif Require PropFinders.
Open Scope list_scope.
Open Scope nat_scope.

(* ------------------------------------------------------------------ *)
(** ** Finding all matches of a pattern that matches no empty text *)
Section Scan.
Variables sp wd dg : N -> bool.
Variable fold : N -> N.
Variable p : pattern.
Notation reads := (reads sp wd dg fold).
Notation here := (match_here sp wd dg fold p false).
Hypothesis never_empty : forall pr i q g, ~ reads (pt_ic p) (pt_re p) pr i [] q g.

(** one character after the other; [skip]: the characters left of a match *)
Fixpoint scan (pos skip : nat) (prev : option N) (s : str) : list found :=
  match s with
  | [] => []
  | c :: s' =>
      match skip with
      | S k => scan (S pos) k (Some c) s'
      | O => match here pos prev s with
             | Some m => m :: scan (S pos) (fo_end m - pos - 1) (Some c) s'
             | None => scan (S pos) 0 (Some c) s'
             end
      end
  end.
Lemma here_range pos prev s m : here pos prev s = Some m -> fo_start m = pos /\ pos < fo_end m <= pos + length s.
Proof.
  intros E. pose proof (match_here_spec sp wd dg fold p false pos prev s) as H. rewrite E in H. destruct H as (w & q & -> & H1 & H2 & R & _).
  split; [exact H1|]. rewrite H2, app_length. destruct w as [|c w]; [|cbn; lia]. destruct (never_empty _ _ _ _ R).
Qed.
Lemma scan_skip : forall skip pos prev s, skip <= length s -> scan pos skip prev s = scan (pos + skip) 0 (after prev (firstn skip s)) (skipn skip s).
Proof.
  induction skip as [|k IH]; intros pos prev s H; [cbn; now rewrite Nat.add_0_r|]. destruct s as [|c s]; [cbn in H; lia|].
  cbn [scan firstn skipn after fold_left]. rewrite IH by (cbn in H; lia). now rewrite Nat.add_succ_r.
Qed.
Lemma search_scan : forall s pos prev,
  match search_from sp wd dg fold p false pos prev s with
  | Some m => pos <= fo_start m < fo_end m /\ fo_end m <= pos + length s /\
              scan pos 0 prev s = m :: scan (fo_end m) 0 (after prev (firstn (fo_end m - pos) s)) (skipn (fo_end m - pos) s)
  | None => scan pos 0 prev s = []
  end.
Proof.
  induction s as [|c s IH]; intros pos prev; cbn [search_from scan].
  - destruct (here pos prev []) as [m|] eqn:E; [|reflexivity]. apply here_range in E as [E1 E2]. cbn in E2. lia.
  - destruct (here pos prev (c :: s)) as [m|] eqn:E.
    + apply here_range in E as [E1 E2]. cbn [length] in E2. split; [lia|]. split; [cbn; lia|]. f_equal. rewrite scan_skip by lia.
      replace (fo_end m - pos) with (S (fo_end m - pos - 1)) at 4 5 by lia. cbn [firstn skipn after fold_left]. f_equal. lia.
    + specialize (IH (S pos) (Some c)). destruct (search_from sp wd dg fold p false (S pos) (Some c) s) as [m|]; [|exact IH].
      destruct IH as (I1 & I2 & I3). split; [lia|]. split; [cbn; lia|]. rewrite I3. f_equal.
      replace (fo_end m - pos) with (S (fo_end m - S pos)) by lia. reflexivity.
Qed.
Lemma find_all_scan : forall fuel pos prev s, length s < fuel -> find_all sp wd dg fold fuel p false pos prev s = scan pos 0 prev s.
Proof.
  induction fuel as [|f IH]; intros pos prev s H; [lia|]. cbn [find_all]. pose proof (search_scan s pos prev) as S.
  destruct (search_from sp wd dg fold p false pos prev s) as [m|]; [|now rewrite S]. destruct S as (S1 & S2 & S3). cbv zeta.
  rewrite (proj2 (Nat.eqb_neq _ _)) by lia. rewrite last_char_after, IH by (rewrite skipn_length; lia). now rewrite S3.
Qed.
(** C105: all matches, by going through the text *)
Lemma finditer_scan s : re_finditer sp wd dg fold p s = scan 0 0 None s.
Proof. apply find_all_scan. lia. Qed.

(** *** What is done with the matches *)
(** [at_ prev s]: the length of a match; [repl prev s]: what it is replaced by *)
Fixpoint go_sub (repl : option N -> str -> option (str * nat)) (skip : nat) (prev : option N) (s : str) : str :=
  match s with
  | [] => []
  | c :: s' =>
      match skip with
      | S k => go_sub repl k (Some c) s'
      | O => match repl prev s with
             | Some (r, n) => r ++ go_sub repl (n - 1) (Some c) s'
             | None => c :: go_sub repl 0 (Some c) s'
             end
      end
  end.
Lemma piece_none s i : piece s i i = [].
Proof. unfold piece. now rewrite Nat.sub_diag. Qed.
Lemma skipn_app_len {A} (b s : list A) k : skipn (length b + k) (b ++ s) = skipn k s.
Proof. rewrite skipn_app, skipn_all2 by lia. now replace (length b + k - length b) with k by lia. Qed.
Lemma skip_to {A} (full b s : list A) : full = b ++ s -> skipn (length b) full = s.
Proof. intros ->. rewrite <- (Nat.add_0_r (length b)). now rewrite skipn_app_len. Qed.
Lemma piece_step b c s i : piece (b ++ c :: s) i (S (length b)) = if i <=? length b then piece (b ++ c :: s) i (length b) ++ [c] else [].
Proof.
  unfold piece. destruct (i <=? length b) eqn:E.
  - apply Nat.leb_le in E. replace (S (length b) - i) with (S (length b - i)) by lia.
    assert (Ei : skipn i (b ++ c :: s) = skipn i b ++ c :: s) by (rewrite skipn_app; now replace (i - length b) with 0 by lia).
    rewrite Ei. assert (L : length (skipn i b) = length b - i) by apply skipn_length. rewrite !firstn_app, L.
    replace (S (length b - i) - (length b - i)) with 1 by lia. rewrite Nat.sub_diag. change (firstn 1 (c :: s)) with [c]. change (firstn 0 (c :: s)) with (@nil N). rewrite app_nil_r.
    rewrite !firstn_all2; [reflexivity|lia|lia].
  - apply Nat.leb_gt in E. now replace (S (length b) - i) with 0 by lia.
Qed.
Lemma sub_scan (f : str -> found -> str) repl full :
  (forall b prev s, full = b ++ s -> match here (length b) prev s with Some m => repl prev s = Some (f full m, fo_end m - length b) | None => repl prev s = None end) ->
  forall s skip b prev, full = b ++ s -> skip <= length s ->
  (forall from, from <= length b -> skip = 0 -> sub_found f full from (scan (length b) 0 prev s) = piece full from (length b) ++ go_sub repl 0 prev s) /\
  (sub_found f full (length b + skip) (scan (length b) skip prev s) = go_sub repl skip prev s).
Proof.
  intros Hr. induction s as [|c s IH]; intros skip b prev E L.
  - cbn in L. assert (skip = 0) as -> by lia. rewrite app_nil_r in E. subst b. cbn. rewrite Nat.add_0_r, skipn_all. split; [|reflexivity].
    intros from H _. rewrite app_nil_r. unfold piece. rewrite firstn_all2; [reflexivity|]. rewrite skipn_length. lia.
  - assert (E1 : full = (b ++ [c]) ++ s) by (rewrite E; now rewrite <- app_assoc). cbn [length] in L.
    assert (Lb : length (b ++ [c]) = S (length b)) by (rewrite app_length; cbn; lia).
    assert (A : forall from, from <= length b -> sub_found f full from (scan (length b) 0 prev (c :: s)) = piece full from (length b) ++ go_sub repl 0 prev (c :: s)).
    { intros from H. cbn [scan go_sub]. specialize (Hr b prev (c :: s) E). destruct (here (length b) prev (c :: s)) as [m|] eqn:Em.
      - rewrite Hr. apply here_range in Em as [M1 M2]. cbn [length] in M2. cbn [sub_found]. rewrite M1. f_equal. f_equal.
        destruct (IH (fo_end m - length b - 1) (b ++ [c]) (Some c) E1) as [_ I2]; [lia|]. rewrite Lb in I2. rewrite <- I2. f_equal. lia.
      - rewrite Hr. destruct (IH 0 (b ++ [c]) (Some c) E1) as [I1 _]; [lia|]. rewrite Lb in I1. rewrite I1 by lia. rewrite E at 1. rewrite piece_step.
        rewrite (proj2 (Nat.leb_le _ _)) by exact H. rewrite <- E. rewrite <- app_assoc. reflexivity. }
    split; [intros from H _; now apply A|]. destruct skip as [|k].
    + rewrite Nat.add_0_r. rewrite A by lia. now rewrite piece_none.
    + cbn [scan go_sub]. destruct (IH k (b ++ [c]) (Some c) E1) as [_ I2]; [lia|]. rewrite Lb in I2. now rewrite <- I2, Nat.add_succ_r.
Qed.
(** splitting at single characters *)
Fixpoint go_split (f : N -> bool) (gs : N -> list ostr) (cur s : str) : list ostr :=
  match s with
  | [] => [Some (rev cur)]
  | c :: s' => if f c then Some (rev cur) :: gs c ++ go_split f gs [] s' else go_split f gs (c :: cur) s'
  end.
Lemma split_scan (f : N -> bool) (gs : N -> list ostr) (G : nat -> groups) full :
  (forall pos prev c s, here pos prev (c :: s) = if f c then Some (mkFound pos (S pos) (G pos)) else None) ->
  (forall b c s, full = b ++ c :: s -> map (fun k => option_map (fun ij => piece full (fst ij) (snd ij)) (group k (mkFound (length b) (S (length b)) (G (length b))))) (seq 1 (pt_groups p)) = gs c) ->
  forall s b prev from, full = b ++ s -> from <= length b ->
  split_found (pt_groups p) full from (scan (length b) 0 prev s) = go_split f gs (rev (piece full from (length b))) s.
Proof.
  intros Hh Hg. induction s as [|c s IH]; intros b prev from E L.
  - cbn. rewrite rev_involutive. f_equal. f_equal. rewrite app_nil_r in E. subst b. unfold piece. rewrite firstn_all2; [reflexivity|]. rewrite skipn_length. lia.
  - assert (E1 : full = (b ++ [c]) ++ s) by (rewrite E; now rewrite <- app_assoc).
    assert (Lb : length (b ++ [c]) = S (length b)) by (rewrite app_length; cbn; lia).
    cbn [scan go_split]. rewrite Hh. destruct (f c).
    + cbn [split_found fo_start fo_end]. rewrite rev_involutive. f_equal. rewrite (Hg b c s E). f_equal.
      replace (S (length b) - length b - 1) with 0 by lia. rewrite <- Lb at 2. rewrite IH by (auto; lia). now rewrite <- Lb, piece_none.
    + rewrite <- Lb at 1. rewrite IH by (auto; lia). f_equal. rewrite Lb. rewrite E at 1. rewrite piece_step.
      rewrite (proj2 (Nat.leb_le _ _)) by exact L. now rewrite <- E, rev_app_distr.
Qed.
End Scan.

(* ------------------------------------------------------------------ *)
(** ** The patterns *)
Section Short.
Variables sp wd dg : N -> bool.
Variable fold : N -> N.
Notation reads := (reads sp wd dg fold false).
Notation matches := (matches sp wd dg fold).
Notation here := (match_here sp wd dg fold).

Lemma matches_reads pat s r n : compiled pat = mkPattern false n r ->
  matches pat s = true <-> exists w q g, s = w ++ q /\ reads r None 0 w q g.
Proof.
  intros E. unfold ModelShort.matches. rewrite E. pose proof (C101_match sp wd dg fold (mkPattern false n r) s) as H.
  destruct (re_match sp wd dg fold (mkPattern false n r) s) as [m|].
  - split; [intros _|reflexivity]. destruct H as (w & q & H1 & H2 & _). exists w, q, (fo_groups m). split; [exact H1|exact H2].
  - split; [discriminate|]. intros (w & q & g & H1 & H2). exfalso. exact (H w q g H1 H2).
Qed.
(** single characters *)
Lemma kind_here neg k pos prev c s n g (G : nat -> groups) : (g = fun r => r) /\ G = (fun _ => []) \/ (g = RGroup 1) /\ G = (fun pos => [(1, (pos, S pos))]) ->
  here (mkPattern false n (RSeq (g (RChar false [IKind k neg])) REmpty)) false pos prev (c :: s) =
  if xorb neg (kind_ok sp wd dg k c) then Some (mkFound pos (S pos) (G pos)) else None.
Proof. intros [[-> ->]|[-> ->]]; unfold match_here; cbn; rewrite orb_false_r; destruct (xorb neg (kind_ok sp wd dg k c)); reflexivity. Qed.

(** *** White space *)
Lemma space_compiled : compiled (u "\s") = mkPattern false 0 (RSeq (RKind KSpace false) REmpty).
Proof. vm_compute. reflexivity. Qed.
Lemma space_never pr i q g : ~ reads (RSeq (RKind KSpace false) REmpty) pr i [] q g.
Proof. intros R. apply reads_seq in R as (w1 & w2 & g1 & g2 & E & _ & R & _). apply reads_char in R as (c & -> & _). discriminate. Qed.
Theorem C105_no_space s : re_no_space sp wd dg fold s = filter (fun c => negb (sp c)) s.
Proof.
  unfold re_no_space, re_sub_with. rewrite space_compiled, finditer_scan by exact space_never.
  set (p := mkPattern false 0 _).
  destruct (sub_scan sp wd dg fold p space_never (fun _ _ => []) (fun _ s => match s with c :: _ => if sp c then Some ([], 1) else None | [] => None end) s) with (s := s) (skip := 0) (b := @nil N) (prev := @None N) as [_ H].
  - intros b prev t _. destruct t as [|c t]; [reflexivity|]. subst p. unfold RKind. rewrite (kind_here false KSpace (length b) prev c t 0 (fun r => r) (fun _ => [])) by auto.
    rewrite xorb_false_l. cbn [kind_ok]. destruct (sp c); [|reflexivity]. cbn [fo_end]. now replace (S (length b) - length b) with 1 by lia.
  - reflexivity.
  - lia.
  - cbn [length plus] in H. rewrite H. clear H. generalize (@None N). induction s as [|c s IH]; intros prev; [reflexivity|]. cbn. destruct (sp c); cbn; [apply IH|now rewrite IH].
Qed.
Lemma split_space s : re_split sp wd dg fold (u "\s") s = go_split sp (fun _ => []) [] s.
Proof.
  unfold re_split. rewrite space_compiled, finditer_scan by exact space_never.
  apply (split_scan sp wd dg fold (mkPattern false 0 (RSeq (RKind KSpace false) REmpty)) sp (fun _ => []) (fun _ => [])) with (b := @nil N); [|reflexivity|reflexivity|cbn; lia].
  intros pos prev c t. unfold RKind. rewrite (kind_here false KSpace pos prev c t 0 (fun r => r) (fun _ => [])) by auto. now rewrite xorb_false_l.
Qed.
Lemma split_space_length s : forall cur, length (go_split sp (fun _ => []) cur s) = S (length (filter sp s)).
Proof. induction s as [|c s IH]; intros cur; [reflexivity|]. cbn. destruct (sp c); cbn; now rewrite IH. Qed.

(** *** Words *)
Lemma nonword_compiled : compiled NONWORD_PATTERN = mkPattern false 1 (RSeq (RGroup 1 (RSeq (RKind KWord true) REmpty)) REmpty).
Proof. vm_compute. reflexivity. Qed.
Lemma nonword_never pr i q g : ~ reads (RSeq (RGroup 1 (RSeq (RKind KWord true) REmpty)) REmpty) pr i [] q g.
Proof. intros R. apply reads_seq in R as (w1 & w2 & g1 & g2 & E & _ & R & _). apply reads_group in R as (g3 & _ & R). apply reads_seq in R as (w3 & w4 & g4 & g5 & -> & _ & R & _). apply reads_char in R as (c & -> & _). discriminate. Qed.
Lemma nonword_here pos prev c s : here (mkPattern false 1 (RSeq (RGroup 1 (RSeq (RKind KWord true) REmpty)) REmpty)) false pos prev (c :: s) =
  if negb (wd c) then Some (mkFound pos (S pos) [(1, (pos, S pos))]) else None.
Proof. unfold match_here. cbn. rewrite orb_false_r. now destruct (wd c). Qed.
Theorem C105_words s : re_words sp wd dg fold s = split_nonword wd s.
Proof.
  unfold re_words, re_split. rewrite nonword_compiled, finditer_scan by exact nonword_never.
  set (p := mkPattern false 1 _).
  pose proof (split_scan sp wd dg fold p (fun c => negb (wd c)) (fun c => [Some [c]]) (fun pos => [(1, (pos, S pos))]) s) as H.
  specialize (H nonword_here). cbn [pt_groups p] in *.
  assert (Q : forall b c t, s = b ++ c :: t -> map (fun k => option_map (fun ij => piece s (fst ij) (snd ij)) (group k (mkFound (length b) (S (length b)) [(1, (length b, S (length b)))]))) (seq 1 1) = [Some [c]]).
  { intros b c t E. cbn [seq map]. unfold group. cbn [Nat.eqb group_in fo_groups option_map fst snd]. unfold piece. rewrite (skip_to _ _ _ E). now replace (S (length b) - length b) with 1 by lia. }
  specialize (H Q). clear Q.
  specialize (H s [] None 0 eq_refl (le_n _)). cbn [length] in H. rewrite H. clear H. unfold split_nonword. rewrite piece_none. cbn [rev].
  assert (K : forall t cur, map (fun x => match x with Some t => t | None => [] end) (go_split (fun c => negb (wd c)) (fun c => [Some [c]]) cur t) = split_nonword_go wd cur t).
  { induction t as [|c t IH]; intros cur; [reflexivity|]. cbn. destruct (wd c); cbn; now rewrite IH. }
  apply K.
Qed.

(** *** Lines of digits, words at the ends *)
Hypothesis lf_space : sp 10%N = true.
Hypothesis lf_digit : dg 10%N = false.
Hypothesis lf_word : wd 10%N = false.
Lemma run_set neg l w : Forall (in_set sp wd dg fold false neg l) w <-> forallb (char_ok sp wd dg fold false neg l) w = true.
Proof. rewrite forallb_forall, Forall_forall. split; intros H x Hx; apply char_ok_spec; now apply H. Qed.
Lemma digit_forall w : Forall (in_set sp wd dg fold false false [IKind KDigit false]) w <-> forallb dg w = true.
Proof.
  rewrite run_set. assert (E : forall c, char_ok sp wd dg fold false false [IKind KDigit false] c = dg c) by (intros c; unfold char_ok; cbn; now destruct (dg c)).
  clear - E. split; intros H; rewrite forallb_forall in *; intros x Hx; specialize (H x Hx); now rewrite E in *.
Qed.
(** [$]: at the end or before a last line feed *)
Definition chomped (s w : str) : Prop := s = w \/ s = w ++ [10%N].
Definition chomp (s : str) : str := match rev s with 10%N :: r => rev r | _ => s end.
Lemma chomp_lf w : chomp (w ++ [10%N]) = w.
Proof. unfold chomp. rewrite rev_app_distr. cbn. apply rev_involutive. Qed.
Lemma chomp_other s : hd_error (rev s) <> Some 10%N -> chomp s = s.
Proof.
  unfold chomp. destruct (rev s) as [|c r]; [reflexivity|]. cbn [hd_error]. intros H.
  repeat (match goal with |- match ?x with _ => _ end = _ => is_var x; destruct x; try reflexivity end). now destruct H.
Qed.
Lemma chomp_cases s : chomped s (chomp s).
Proof.
  destruct (rev s) as [|c r] eqn:E; [left; symmetry; apply chomp_other; rewrite E; discriminate|]. destruct (N.eq_dec c 10) as [->|Hc].
  - right. assert (Es : s = rev r ++ [10%N]) by (rewrite <- (rev_involutive s), E; reflexivity). rewrite Es. now rewrite chomp_lf.
  - left. symmetry. apply chomp_other. rewrite E. cbn. congruence.
Qed.
Theorem C105_digits s : re_digits_only sp wd dg fold s = digits_only dg s.
Proof.
  unfold re_digits_only. apply eq_true_iff_eq.
  rewrite (matches_reads _ s (RSeq RStart (RSeq (RRep true 1 None (RKind KDigit false)) (RSeq REnd REmpty))) 0) by (vm_compute; reflexivity).
  assert (M : (exists w q g, s = w ++ q /\ reads (RSeq RStart (RSeq (RRep true 1 None (RKind KDigit false)) (RSeq REnd REmpty))) None 0 w q g) <->
              exists w, w <> [] /\ forallb dg w = true /\ chomped s w).
  { split.
    - intros (w & q & g & -> & R). read_cases. exists w. rewrite app_nil_r in *. split; [intros ->; cbn in L; lia|]. split; [now apply digit_forall|].
      cbn [app] in *. unfold chomped. rewrite ?app_nil_r. destruct E as [-> | ->]; [left; apply app_nil_r|now right].
    - intros (w & Hn & Hd & Hs). destruct w as [|c w]; [contradiction|]. assert (Hq : exists q, s = (c :: w) ++ q /\ (q = [] \/ q = [10%N])) by (destruct Hs as [-> | ->]; [exists []; rewrite app_nil_r; auto|exists [10%N]; auto]).
      destruct Hq as (q & -> & Hq). exists (c :: w), q. eexists. split; [reflexivity|].
      eapply (mk_seq _ _ _ _ _ _ _ _ _ [] (c :: w) _ _ []); [reflexivity|reflexivity|constructor|].
      eapply (mk_seq _ _ _ _ _ _ _ _ _ (c :: w) [] _ _ [] []); [now rewrite app_nil_r|reflexivity|apply mk_run; [exact I|now apply digit_forall|cbn; lia|exact I]|].
      eapply (mk_seq _ _ _ _ _ _ _ _ _ [] [] _ _ [] []); [reflexivity|reflexivity|now constructor|constructor]. }
  rewrite M. clear M. change (digits_only dg s) with (match chomp s with [] => false | _ => forallb dg (chomp s) end). split.
  - intros (w & Hn & Hd & [-> | ->]).
    + rewrite chomp_other; [destruct w; [contradiction|exact Hd]|]. destruct w as [|c w _] using rev_ind; [contradiction|]. rewrite rev_app_distr. cbn. intros [= ->].
      rewrite forallb_app in Hd. cbn in Hd. rewrite lf_digit in Hd. now rewrite andb_false_r in Hd.
    + rewrite chomp_lf. destruct w; [contradiction|exact Hd].
  - intros H. exists (chomp s). split; [intros E; rewrite E in H; discriminate|]. split; [destruct (chomp s); [discriminate|exact H]|apply chomp_cases].
Qed.

Definition page_char (c : N) : bool := dg c || sp c || (c =? 46)%N.
Definition PAGE_CHAR : re := RGroup 1 (RAlt (RSeq (RKind KDigit false) REmpty) (RAlt (RSeq (RKind KSpace false) REmpty) (RSeq (RLit 46%N) REmpty))).
Lemma page_one p i w q g : reads PAGE_CHAR p i w q g -> exists c, w = [c] /\ page_char c = true.
Proof.
  intros R. unfold PAGE_CHAR in R. read_cases.
  - apply reads_char in R as (c & -> & _ & H). apply in_kind in H. cbn in H. exists c. split; [reflexivity|]. unfold page_char. now rewrite H.
  - apply reads_char in R as (c & -> & _ & H). apply in_kind in H. cbn in H. exists c. split; [reflexivity|]. unfold page_char. rewrite H. now rewrite orb_true_r.
  - exists 46%N. split; [reflexivity|]. unfold page_char. now rewrite orb_true_r.
Qed.
Lemma page_chars_reads : forall gr lo hi w p i q g, reads (RRep gr lo hi PAGE_CHAR) p i w q g -> forallb page_char w = true.
Proof.
  intros gr lo hi w. remember (length w) as n eqn:Hn. revert lo hi w Hn. induction n as [n IH] using lt_wf_ind. intros lo hi w Hn p i q g R. inversion R as [| | | | | | | | | | |gr' lo' hi' a p' i' w1 w2 q' g1 g2 Hl R1 R2]; subst; [reflexivity|].
  assert (H1 : forallb page_char w1 = true /\ w1 <> []) by (apply page_one in R1 as (c & -> & Hc); cbn; rewrite Hc; split; [reflexivity|discriminate]).
  destruct H1 as [H1 H2]. rewrite forallb_app, H1. cbn [andb]. eapply IH; [|reflexivity|exact R2]. rewrite app_length. destruct w1; [contradiction|cbn; lia].
Qed.
Lemma page_chars_make : forall w lo p i q, w <> [] -> lo <= 1 -> forallb page_char w = true ->
  exists g, reads (RRep true lo None PAGE_CHAR) p i w q g.
Proof.
  induction w as [|c w IH]; intros lo p i q Hn Hlo H; [contradiction|]. cbn in H. apply andb_true_iff in H as [Hc Hw].
  assert (R1 : forall q', exists g, reads PAGE_CHAR p i [c] q' g).
  { intros q'. eexists. constructor. unfold page_char in Hc. rewrite !orb_true_iff in Hc. destruct Hc as [[Hc|Hc]|Hc].
    - apply rd_left. eapply (mk_seq _ _ _ _ _ _ _ _ _ [c] [] _ _ [] []); [reflexivity|reflexivity|constructor; now apply in_kind|constructor].
    - apply rd_right, rd_left. eapply (mk_seq _ _ _ _ _ _ _ _ _ [c] [] _ _ [] []); [reflexivity|reflexivity|constructor; now apply in_kind|constructor].
    - apply N.eqb_eq in Hc as ->. apply rd_right, rd_right. eapply (mk_seq _ _ _ _ _ _ _ _ _ [46%N] [] _ _ [] []); [reflexivity|reflexivity|apply mk_lit|constructor]. }
  destruct (R1 (w ++ q)) as [g1 R]. destruct w as [|d w].
  - exists ([] ++ g1). apply (rd_more _ _ _ _ _ true lo None _ p i [c] [] q g1 []); [intros _; split; discriminate|exact R|]. replace (pred lo) with 0 by lia. constructor.
  - destruct (IH 0 (after p [c]) (i + length [c]) q) as [g2 R2]; [discriminate|lia|exact Hw|]. exists (g2 ++ g1).
    apply (rd_more _ _ _ _ _ true lo None _ p i [c] (d :: w) q g1 g2); [intros _; split; discriminate|exact R|]. replace (pred lo) with 0 by lia. exact R2.
Qed.
Theorem C105_header text count min_count : re_valid_header sp wd dg fold text count min_count = valid_header sp dg text count min_count.
Proof.
  unfold re_valid_header, valid_header. destruct (count <? min_count)%Z; [reflexivity|].
  assert (M : matches (u "^(\d|\s|\.)+$") text = match text with [] => false | _ => forallb page_char text end).
  { apply eq_true_iff_eq.
    rewrite (matches_reads _ text (RSeq RStart (RSeq (RRep true 1 None PAGE_CHAR) (RSeq REnd REmpty))) 1) by (vm_compute; reflexivity).
    split.
    - intros (w & q & g & -> & R). apply reads_seq in R as (w1 & w2 & g1 & g2 & -> & -> & R1 & R2). apply reads_start in R1 as (-> & -> & _).
      apply reads_seq in R2 as (w3 & w4 & g3 & g4 & -> & -> & R2 & R3). read_cases. cbn [app] in *. rewrite app_nil_r.
      assert (Hn : w3 <> []).
      { intros ->. inversion R2 as [| | | | | | | | | | |gr' lo' hi' a p' i' v1 v2 q' h1 h2 Hl R1 R3]; subst. match goal with K : _ ++ _ = [] |- _ => apply app_eq_nil in K as [-> ->] end.
        apply page_one in R1 as (c & K & _). discriminate. }
      apply page_chars_reads in R2. destruct w3 as [|c w3]; [contradiction|]. destruct E as [-> | ->]; [now rewrite app_nil_r|].
      cbn [app]. change (forallb page_char ((c :: w3) ++ [10%N]) = true). rewrite forallb_app, R2. cbn. unfold page_char. rewrite lf_space. now rewrite orb_true_r.
    - intros H. assert (Hn : text <> []) by now destruct text. assert (Ha : forallb page_char text = true) by now destruct text. clear H.
      destruct (page_chars_make text 1 None 0 [] Hn (le_n _) Ha) as [g R]. exists text, []. eexists. split; [now rewrite app_nil_r|].
      eapply (mk_seq _ _ _ _ _ _ _ _ _ [] text _ _ []); [reflexivity|reflexivity|constructor|].
      eapply (mk_seq _ _ _ _ _ _ _ _ _ text [] _ _ g []); [now rewrite app_nil_r|reflexivity|exact R|].
      eapply (mk_seq _ _ _ _ _ _ _ _ _ [] [] _ _ [] []); [reflexivity|reflexivity|constructor; now left|constructor]. }
  rewrite M. change (fun c => dg c || sp c || (c =? 46)%N) with page_char. destruct (match text with [] => false | _ => forallb page_char text end); [reflexivity|].
  rewrite split_space, split_space_length. destruct (Nat.ltb_spec (S (length (filter sp text))) 2), (Z.ltb_spec (Z.of_nat (length (filter sp text)) + 1) 2); try reflexivity; lia.
Qed.

Lemma in_any_lf c : in_set sp wd dg fold false true [ILit 10%N] c <-> c <> 10%N.
Proof. rewrite in_any. reflexivity. Qed.
Definition no_lf (s : str) : bool := forallb (fun c => negb (N.eqb c 10)) s.
Lemma no_lf_forall s : Forall (in_set sp wd dg fold false true [ILit 10%N]) s <-> no_lf s = true.
Proof.
  unfold no_lf. rewrite forallb_forall, Forall_forall. split; intros H x Hx; specialize (H x Hx).
  - apply in_any_lf in H. apply negb_true_iff. now apply N.eqb_neq.
  - apply in_any_lf. apply negb_true_iff in H. now apply N.eqb_neq in H.
Qed.
Theorem C105_ends s : re_ends_with_word sp wd dg fold s = ends_with_word wd s.
Proof.
  unfold re_ends_with_word. apply eq_true_iff_eq.
  rewrite (matches_reads _ s (RSeq (RRep true 0 None RAny) (RSeq (RKind KWord false) (RSeq REnd REmpty))) 0) by (vm_compute; reflexivity).
  assert (O : forall t, match rev t with c :: _ => wd c && forallb (fun c => negb (N.eqb c ch_lf)) (removelast t) | [] => false end = true <->
                        exists a c, t = a ++ [c] /\ no_lf a = true /\ wd c = true).
  { intros t. destruct t as [|c a _] using rev_ind.
    - cbn. split; [discriminate|]. intros (a & c & E & _). now destruct a.
    - rewrite rev_app_distr, removelast_last. cbn [rev app]. rewrite andb_true_iff. split.
      + intros [H1 H2]. exists a, c. repeat split; auto.
      + intros (a' & c' & E & H1 & H2). apply app_inj_tail in E as [<- <-]. now split. }
  unfold ends_with_word. rewrite orb_true_iff, O. clear O.
  assert (O : match rev s with c :: t => N.eqb c ch_lf && match rev (rev t) with c :: _ => wd c && forallb (fun c => negb (N.eqb c ch_lf)) (removelast (rev t)) | [] => false end | [] => false end = true <->
              exists a c, s = a ++ [c; 10%N] /\ no_lf a = true /\ wd c = true).
  { destruct s as [|x s _] using rev_ind.
    - cbn. split; [discriminate|]. intros (a & c & E & _). now destruct a.
    - rewrite rev_app_distr. cbn [rev app]. rewrite !rev_involutive, andb_true_iff, N.eqb_eq. split.
      + intros [-> H]. destruct s as [|c a _] using rev_ind; [discriminate|]. rewrite rev_app_distr, removelast_last in H. cbn [rev app] in H. apply andb_true_iff in H as [H1 H2].
        exists a, c. rewrite <- app_assoc. auto.
      + intros (a & c & E & H1 & H2). change (a ++ [c; 10%N]) with (a ++ [c] ++ [10%N]) in E. rewrite app_assoc in E. apply app_inj_tail in E as [-> ->]. split; [reflexivity|].
        rewrite rev_app_distr, removelast_last. cbn [rev app]. now rewrite H2. }
  rewrite O. clear O. split.
  - intros (w & q & g & -> & R). apply reads_seq in R as (w1 & w2 & g1 & g2 & -> & -> & R1 & R2). apply reads_seq in R2 as (w3 & w4 & g3 & g4 & -> & -> & R2 & R3). read_cases.
    apply reads_char in R2 as (c & -> & -> & H). apply in_kind in H. cbn in H. apply no_lf_forall in F. rewrite app_nil_r in *. cbn [app] in *.
    destruct E as [-> | ->]; [left; exists w1, c; rewrite app_nil_r; auto|right; exists w1, c; rewrite <- app_assoc; auto].
  - intros H. assert (Hq : exists a c q, s = (a ++ [c]) ++ q /\ no_lf a = true /\ wd c = true /\ (q = [] \/ q = [10%N])).
    { destruct H as [(a & c & -> & H1 & H2)|(a & c & -> & H1 & H2)]; [exists a, c, []; rewrite app_nil_r; auto|exists a, c, [10%N]; rewrite <- app_assoc; auto]. }
    destruct Hq as (a & c & q & -> & H1 & H2 & H3). exists (a ++ [c]), q. eexists. split; [reflexivity|].
    eapply (mk_seq _ _ _ _ _ _ _ _ _ a [c] _ _ []); [reflexivity|reflexivity|apply mk_run; [exact I|now apply no_lf_forall|lia|exact I]|].
    eapply (mk_seq _ _ _ _ _ _ _ _ _ [c] [] _ _ [] []); [reflexivity|reflexivity|constructor; now apply in_kind|].
    eapply (mk_seq _ _ _ _ _ _ _ _ _ [] [] _ _ [] []); [reflexivity|reflexivity|now constructor|constructor].
Qed.
Theorem C105_starts s : re_starts_with_word sp wd dg fold s = starts_with_word wd s.
Proof.
  unfold re_starts_with_word. apply eq_true_iff_eq.
  rewrite (matches_reads _ s (RSeq RStart (RSeq (RKind KWord false) (RSeq (RRep true 0 None RAny) REmpty))) 0) by (vm_compute; reflexivity).
  split.
  - intros (w & q & g & -> & R). apply reads_seq in R as (w1 & w2 & g1 & g2 & -> & -> & R1 & R2). apply reads_start in R1 as (-> & -> & _). apply reads_seq in R2 as (w3 & w4 & g3 & g4 & -> & -> & R2 & R3).
    apply reads_char in R2 as (c & -> & _ & H). apply in_kind in H. exact H.
  - destruct s as [|c s]; [discriminate|]. intros H. exists [c], s. eexists. split; [reflexivity|].
    eapply (mk_seq _ _ _ _ _ _ _ _ _ [] [c] _ _ []); [reflexivity|reflexivity|constructor|].
    eapply (mk_seq _ _ _ _ _ _ _ _ _ [c] [] _ _ [] []); [reflexivity|reflexivity|constructor; now apply in_kind|].
    eapply (mk_seq _ _ _ _ _ _ _ _ _ [] [] _ _ [] []); [reflexivity|reflexivity|constructor|constructor].
Qed.
Theorem C105_dot s : re_dot_end sp wd dg fold s = if starts_with [46%N] s then Some 1 else None.
Proof.
  unfold re_dot_end, re_search. assert (C : compiled (u "^\.") = mkPattern false 0 (RSeq RStart (RSeq (RLit 46%N) REmpty))) by (vm_compute; reflexivity). rewrite C. clear C.
  assert (K : forall t pos prev, search_from sp wd dg fold (mkPattern false 0 (RSeq RStart (RSeq (RLit 46%N) REmpty))) false (S pos) prev t = None).
  { induction t as [|c t IH]; intros pos prev; [reflexivity|]. cbn [search_from]. unfold match_here. cbn [ModelRegex.bt pt_re pt_ic pl_pos Nat.eqb]. apply IH. }
  destruct s as [|c s]; [reflexivity|]. cbn [search_from]. rewrite K.
  assert (E : starts_with [46%N] (c :: s) = N.eqb c 46) by (cbn [starts_with]; rewrite (N.eqb_sym 46 c); apply andb_true_r). rewrite E.
  unfold match_here. cbn -[N.eqb]. destruct (N.eqb c 46); reflexivity.
Qed.

(** *** Placeholders *)
Definition PLACEHOLDER : re := RSeq (RLit 123%N) (RSeq (RGroup 1 (RSeq (RRep true 1 None (RChar true [ILit 125%N])) REmpty)) (RSeq (RLit 125%N) REmpty)).
Lemma placeholder_compiled : compiled PLACEHOLDER_PATTERN = mkPattern false 1 PLACEHOLDER.
Proof. vm_compute. reflexivity. Qed.
Lemma not_lit a w : Forall (in_set sp wd dg fold false true [ILit a]) w <-> ~ In a w.
Proof.
  rewrite Forall_forall. split.
  - intros H Ha. apply (H a Ha (ILit a)); [now left|reflexivity].
  - intros H x Hx i [<-|[]] E. cbn in E. subst. contradiction.
Qed.
Lemma placeholder_reads p i w q g : reads PLACEHOLDER p i w q g <-> exists name, w = [123%N] ++ name ++ [125%N] /\ name <> [] /\ ~ In 125%N name /\ g = [(1, (S i, S i + length name))].
Proof.
  split.
  - intros R. unfold PLACEHOLDER in R. read_cases. exists w0. rewrite app_nil_r. split; [reflexivity|]. split; [intros ->; cbn in L; lia|]. split; [now apply (not_lit 125)|].
    cbn [length app]. now rewrite Nat.add_1_r.
  - intros (name & -> & Hn & Hi & ->). unfold PLACEHOLDER. eapply (mk_seq _ _ _ _ _ _ _ _ _ [123%N] (name ++ [125%N]) _ _ []); [reflexivity|now rewrite app_nil_r|apply mk_lit|].
    eapply (mk_seq _ _ _ _ _ _ _ _ _ name [125%N] _ _ [(1, (S i, S i + length name))] []); [reflexivity|reflexivity| |].
    + cbn [length]. rewrite Nat.add_1_r. constructor. eapply (mk_seq _ _ _ _ _ _ _ _ _ name [] _ _ [] []); [now rewrite app_nil_r|reflexivity|apply mk_run; [exact I|now apply not_lit|destruct name; [contradiction|cbn; lia]|exact I]|constructor].
    + eapply (mk_seq _ _ _ _ _ _ _ _ _ [125%N] [] _ _ [] []); [reflexivity|reflexivity|apply mk_lit|constructor].
Qed.
Lemma until_brace_spec : forall s acc name q, until_brace acc s = Some (name, q) <-> exists v, name = rev acc ++ v /\ ~ In 125%N v /\ s = v ++ [125%N] ++ q.
Proof.
  induction s as [|x s IH]; intros acc name q; cbn [until_brace].
  - split; [discriminate|]. intros (v & _ & _ & E). now destruct v.
  - destruct (N.eqb_spec x 125) as [->|Hx].
    + split.
      * intros [= <- <-]. exists []. rewrite app_nil_r. repeat split. intros [].
      * intros (v & -> & Hv & E). destruct v as [|y v]; [injection E as <-; now rewrite app_nil_r|]. injection E as <- _. destruct Hv. now left.
    + rewrite IH. split.
      * intros (v & -> & Hv & ->). exists (x :: v). cbn [rev]. rewrite <- app_assoc. repeat split. intros [->|H]; contradiction.
      * intros (v & -> & Hv & E). destruct v as [|y v]; [injection E as -> _; contradiction|]. injection E as <- ->. exists v. cbn [rev]. rewrite <- app_assoc. repeat split. intros H. apply Hv. now right.
Qed.
Definition placeholder_at (ph : list (str * str)) (prev : option N) (s : str) : option (str * nat) :=
  match s with
  | x :: s' => if N.eqb x 123 then match until_brace [] s' with
      | Some ((_ :: _) as name, _) => Some (re_escape (match dict_get name ph with Some v => v | None => u "NOT_FOUND" end), length name + 2)
      | _ => None end else None
  | [] => None
  end.
Theorem C105_placeholders pattern ph : re_resolve_placeholders sp wd dg fold pattern ph = resolve_placeholders re_escape pattern ph.
Proof.
  unfold re_resolve_placeholders, re_sub_with, resolve_placeholders. rewrite placeholder_compiled.
  assert (NE : forall pr i q g, ~ reads PLACEHOLDER pr i [] q g) by (intros pr i q g R; apply placeholder_reads in R as (name & E & _); discriminate).
  rewrite finditer_scan by exact NE.
  set (f := fun s m => re_escape (match dict_get (group_text s m 1) ph with Some v => v | None => u "NOT_FOUND"%string end)).
  destruct (sub_scan sp wd dg fold (mkPattern false 1 PLACEHOLDER) NE f (placeholder_at ph) pattern) with (s := pattern) (skip := 0) (b := @nil N) (prev := @None N) as [_ H].
  - intros b prev s Es. pose proof (match_here_spec sp wd dg fold (mkPattern false 1 PLACEHOLDER) false (length b) prev s) as M.
    destruct (here (mkPattern false 1 PLACEHOLDER) false (length b) prev s) as [m|].
    + destruct M as (w & q & -> & M1 & M2 & R & _). cbn [pt_ic pt_re] in R. apply placeholder_reads in R as (name & -> & Hn & Hi & Hg).
      cbn [app placeholder_at]. change (N.eqb 123 123) with true. cbv iota.
      assert (U : until_brace [] ((name ++ [125%N]) ++ q) = Some (name, q)) by (apply until_brace_spec; exists name; rewrite <- app_assoc; auto). rewrite U.
      destruct name as [|c name]; [contradiction|]. f_equal. f_equal.
      * unfold f. assert (G : group_text pattern m 1 = c :: name); [|now rewrite G].
        unfold group_text, group. cbn [Nat.eqb]. rewrite Hg. cbn [group_in Nat.eqb]. rewrite Es.
        replace (S (length b) + length (c :: name) - S (length b)) with (length (c :: name)) by lia.
        replace (S (length b)) with (length b + 1) by lia. rewrite skipn_app_len. cbn [app skipn]. rewrite <- app_assoc.
        change (c :: name ++ [125%N] ++ q) with ((c :: name) ++ [125%N] ++ q). rewrite firstn_app, Nat.sub_diag, firstn_O, app_nil_r. apply firstn_all.
      * rewrite M2, !app_length. cbn [length]. lia.
    + cbn [pt_ic pt_re] in M. unfold placeholder_at. destruct s as [|x s]; [reflexivity|]. destruct (N.eqb_spec x 123) as [->|Hx]; [|reflexivity].
      destruct (until_brace [] s) as [[[|c name] q]|] eqn:U; [reflexivity| |reflexivity]. apply until_brace_spec in U as (v & Ev & Hv & ->). cbn [rev app] in Ev. subst v. exfalso.
      destruct (M ([123%N] ++ (c :: name) ++ [125%N]) q [(1, (S (length b), S (length b) + length (c :: name)))]) as [K _]; [cbn; now rewrite <- app_assoc|apply placeholder_reads; exists (c :: name); repeat split; [discriminate|exact Hv]|discriminate].
  - reflexivity.
  - lia.
  - cbn [length plus] in H. rewrite H. clear H f.
    assert (K : forall s skip prev, go_sub (placeholder_at ph) skip prev s = ModelSimpleMatch.resolve_go re_escape ph skip s).
    { induction s as [|x s IH]; intros skip prev; [reflexivity|]. cbn [go_sub ModelSimpleMatch.resolve_go]. destruct skip as [|skip]; [|apply IH]. cbn [placeholder_at].
      destruct (N.eqb x 123); [|now rewrite IH]. destruct (until_brace [] s) as [[[|c name] q]|]; [now rewrite IH| |now rewrite IH].
      rewrite IH. f_equal. f_equal. lia. }
    apply K.
Qed.

(** *** Addresses *)
Definition URL_START : re := RSeq (RLit 104%N) (RSeq (RLit 116%N) (RSeq (RLit 116%N) (RSeq (RLit 112%N) (RSeq (RRep true 0 (Some 1) (RLit 115%N)) (RSeq (RLit 58%N) (RSeq (RLit 47%N) (RSeq (RLit 47%N) REmpty))))))).
Lemma url_compiled : compiled URL_START_PATTERN = mkPattern false 0 URL_START.
Proof. vm_compute. reflexivity. Qed.
Lemma url_reads p i w q g : reads URL_START p i w q g <-> (w = u "http://"%string \/ w = u "https://"%string) /\ g = [].
Proof.
  split.
  - intros R. unfold URL_START in R. read_cases.
    + assert (w3 = [] \/ w3 = [115%N]) as [-> | ->]; [|split; [left; reflexivity|reflexivity]|split; [right; reflexivity|reflexivity]].
      destruct w3 as [|c [|d w3]]; [now left| |cbn in L; lia]. inversion F as [|? ? Fc]; subst. apply in_lit in Fc. cbn in Fc. subst. now right.
  - assert (K : forall v, v = [] \/ v = [115%N] -> reads URL_START p i ([104; 116; 116; 112]%N ++ v ++ [58; 47; 47]%N) q []).
    { intros v Hv. unfold URL_START.
      eapply (mk_seq _ _ _ _ _ _ _ _ _ [104%N] ([116; 116; 112]%N ++ v ++ [58; 47; 47]%N) _ _ [] []); [reflexivity|reflexivity|apply mk_lit|].
      eapply (mk_seq _ _ _ _ _ _ _ _ _ [116%N] ([116; 112]%N ++ v ++ [58; 47; 47]%N) _ _ [] []); [reflexivity|reflexivity|apply mk_lit|].
      eapply (mk_seq _ _ _ _ _ _ _ _ _ [116%N] ([112]%N ++ v ++ [58; 47; 47]%N) _ _ [] []); [reflexivity|reflexivity|apply mk_lit|].
      eapply (mk_seq _ _ _ _ _ _ _ _ _ [112%N] (v ++ [58; 47; 47]%N) _ _ [] []); [reflexivity|reflexivity|apply mk_lit|].
      eapply (mk_seq _ _ _ _ _ _ _ _ _ v [58; 47; 47]%N _ _ [] []); [reflexivity|reflexivity|apply mk_run; [lia| |lia|destruct Hv as [-> | ->]; cbn; lia]|].
      { destruct Hv as [-> | ->]; [constructor|]. constructor; [now apply in_lit|constructor]. }
      eapply (mk_seq _ _ _ _ _ _ _ _ _ [58%N] [47; 47]%N _ _ [] []); [reflexivity|reflexivity|apply mk_lit|].
      eapply (mk_seq _ _ _ _ _ _ _ _ _ [47%N] [47]%N _ _ [] []); [reflexivity|reflexivity|apply mk_lit|].
      eapply (mk_seq _ _ _ _ _ _ _ _ _ [47%N] [] _ _ [] []); [reflexivity|reflexivity|apply mk_lit|constructor]. }
    intros [[-> | ->] ->]; [apply (K []); now left|apply (K [115%N]); now right].
Qed.
Lemma starts_with_app a s : starts_with a s = true <-> exists q, s = a ++ q.
Proof.
  revert s. induction a as [|x a IH]; intros s; cbn [starts_with]; [split; [now exists s|reflexivity]|]. destruct s as [|y s].
  - split; [discriminate|]. intros [q E]. discriminate.
  - rewrite andb_true_iff, N.eqb_eq, IH. split; [intros [-> [q ->]]; now exists q|intros [q [= -> ->]]; split; [reflexivity|now exists q]].
Qed.
Lemma url_here pos prev s : match here (mkPattern false 0 URL_START) false pos prev s with
  | Some m => url_at s = true /\ fo_start m = pos /\ exists w q, s = 104%N :: w ++ q /\ ~ In 104%N w /\ fo_end m = pos + S (length w)
  | None => url_at s = false
  end.
Proof.
  pose proof (match_here_spec sp wd dg fold (mkPattern false 0 URL_START) false pos prev s) as M. unfold url_at.
  destruct (here (mkPattern false 0 URL_START) false pos prev s) as [m|].
  - destruct M as (w & q & -> & M1 & M2 & R & _). cbn [pt_ic pt_re] in R. apply url_reads in R as [Hw _]. split; [|split; [exact M1|]].
    + apply orb_true_iff. destruct Hw as [-> | ->]; [left|right]; apply starts_with_app; eauto.
    + destruct Hw as [-> | ->]; [exists (u "ttp://"%string), q|exists (u "ttps://"%string), q]; (split; [reflexivity|]); (split; [vm_compute; intuition discriminate|exact M2]).
  - cbn [pt_ic pt_re] in M. apply not_true_iff_false. rewrite orb_true_iff. intros [K|K]; apply starts_with_app in K as [q ->];
      (destruct (M _ q [] eq_refl) as [K _]; [apply url_reads; auto|discriminate]).
Qed.
Lemma urls_scan full : forall s skip b prev from, full = b ++ s -> from <= length b -> (forall c, In c (firstn skip s) -> c <> 104%N) -> skip <= length s -> (from = length b -> skip = 0 \/ s = []) ->
  urls full from (scan sp wd dg fold (mkPattern false 0 URL_START) (length b) skip prev s) = split_urls (piece full from (length b)) s.
Proof.
  induction s as [|c s IH]; intros skip b prev from E L Hs Lk Hf.
  - cbn [scan urls split_urls]. rewrite app_nil_r in E. subst b. unfold piece. rewrite firstn_all2 by (rewrite skipn_length; lia).
    destruct (Nat.ltb_spec from (length full)).
    + destruct (skipn from full) eqn:Es; [apply (f_equal (@length N)) in Es; rewrite skipn_length in Es; cbn in Es; lia|reflexivity].
    + now rewrite skipn_all2.
  - assert (E1 : full = (b ++ [c]) ++ s) by (rewrite E; now rewrite <- app_assoc).
    assert (Lb : length (b ++ [c]) = S (length b)) by (rewrite app_length; cbn; lia).
    assert (P : piece full from (length (b ++ [c])) = piece full from (length b) ++ [c]) by (rewrite Lb, E, piece_step; now rewrite (proj2 (Nat.leb_le _ _)) by exact L).
    cbn [scan split_urls]. destruct skip as [|skip].
    + pose proof (url_here (length b) prev (c :: s)) as H. destruct (here (mkPattern false 0 URL_START) false (length b) prev (c :: s)) as [m|].
      * destruct H as (H1 & H2 & w & q & [= -> ->] & H4 & H5). rewrite H1. cbn [urls]. rewrite H2. rewrite <- Lb.
        rewrite IH; [|exact E1|rewrite Lb; lia| |rewrite app_length; lia|rewrite Lb; lia].
        -- assert (Pc : piece full (length b) (length (b ++ [104%N])) = [104%N]) by (rewrite Lb, E, piece_step, Nat.leb_refl; now rewrite piece_none). rewrite Pc.
           destruct (Nat.ltb_spec from (length b)).
           ++ destruct (piece full from (length b)) eqn:Ep; [|reflexivity]. apply (f_equal (@length N)) in Ep. unfold piece in Ep. rewrite firstn_length, skipn_length, E, app_length in Ep. cbn in Ep. lia.
           ++ replace from with (length b) by lia. now rewrite piece_none.
        -- intros x Hx ->. apply H4. replace (fo_end m - length b - 1) with (length w) in Hx by lia. rewrite firstn_app, Nat.sub_diag, firstn_O, app_nil_r, firstn_all in Hx. exact Hx.
      * rewrite H. rewrite <- P. rewrite <- Lb. apply IH; [exact E1|rewrite Lb; lia|intros x []|lia|]. now left.
    + assert (Hc : url_at (c :: s) = false).
      { unfold url_at. apply not_true_iff_false. rewrite orb_true_iff. assert (c <> 104%N) by (apply Hs; now left). intros [K|K]; apply starts_with_app in K as [q [= -> _]]; contradiction. }
      rewrite Hc, <- P, <- Lb. apply IH; [exact E1|rewrite Lb; lia|intros x Hx; apply Hs; now right|cbn in Lk; lia|]. rewrite Lb. lia.
Qed.
Theorem C105_urls url : re_split_url sp wd dg fold url = split_url url.
Proof.
  unfold re_split_url, split_url. rewrite url_compiled. rewrite finditer_scan.
  2: { intros pr i q g R. apply url_reads in R as [[K|K] _]; discriminate. }
  pose proof (urls_scan url url 0 [] None 0 eq_refl (le_n _)) as H. cbn [length] in H. rewrite H; [now rewrite piece_none|intros c []|lia|now left].
Qed.

(** *** Namespaces *)
Definition prefix_re (v : str) : re := RSeq (RBound false) (lits v REmpty).
Lemma lits_app a b r : lits (a ++ b) r = lits a (lits b r).
Proof. unfold lits. now rewrite fold_right_app. Qed.
Lemma prefix_compiled ns : re_compile (u "\b" ++ re_escape ns ++ u ":") = Parsed (mkPattern false 0 (prefix_re (ns ++ u ":"))).
Proof.
  pose (body := re_escape ns ++ u ":" : list N).
  assert (P : parse_alt (3 * length (92%N :: 98%N :: body) + 3) 0 (92%N :: 98%N :: body) = Parsed (prefix_re (ns ++ u ":"), 0, [])).
  { assert (L : length ns + 1 <= length body) by (unfold body; rewrite app_length; pose proof (re_escape_length ns); change (length (u ":")) with 1; lia).
    cbn [length]. replace (3 * S (S (length body)) + 3) with (S (S (length ns + S (S (3 * length body - length ns + 5))))) by lia.
    apply alt_one; [|discriminate]. eapply seq_step; [reflexivity|..].
    - replace (length ns + S (S (3 * length body - length ns + 5))) with (S (3 * length body + 6)) by lia. reflexivity.
    - apply repeat_none. unfold body. apply escape_bounds. reflexivity.
    - unfold body. rewrite parse_escaped by reflexivity. change (u ":") with [58%N].
      replace (parse_seq (S (S (3 * length (re_escape ns ++ [58%N]) - length ns + 5))) 0 [58%N]) with (Parsed (lits [58%N] REmpty, 0, @nil N)).
      + cbn [pbind]. now rewrite lits_app.
      + symmetry. eapply seq_step; [reflexivity|reflexivity|reflexivity|reflexivity]. }
  change (u "\b" ++ re_escape ns ++ u ":") with (92%N :: 98%N :: body). clearbody body. unfold re_compile.
  change (starts_with (u "(?i)") (92%N :: 98%N :: body)) with false. cbv iota beta zeta. rewrite P. reflexivity.
Qed.
Lemma same_lits w v : Forall2 (same_char fold false) w v <-> w = v.
Proof.
  split.
  - induction 1 as [|x y w v H _ IH]; [reflexivity|]. cbn in H. congruence.
  - intros ->. induction v as [|x v IH]; constructor; [reflexivity|exact IH].
Qed.
Lemma prefix_reads v p i w q g : reads (prefix_re v) p i w q g <-> w = v /\ g = [] /\ boundary wd p (v ++ q).
Proof.
  unfold prefix_re. rewrite reads_seq. split.
  - intros (w1 & w2 & g1 & g2 & -> & -> & R1 & R2). apply reads_bound in R1 as (-> & -> & B). apply reads_lits in R2 as (w3 & w4 & -> & F & R2). apply same_lits in F as ->.
    inversion R2; subst. rewrite !app_nil_r in *. auto.
  - intros (-> & -> & B). exists [], v, [], []. repeat split; [constructor; exact B|]. apply reads_lits. exists v, []. rewrite app_nil_r. repeat split; [now apply same_lits|constructor].
Qed.
Lemma template_plain n : forall s f, length s < f -> ~ In 92%N s -> parse_template f n s = Parsed (map (fun c => PText [c]) s).
Proof.
  induction s as [|c s IH]; intros f L H; (destruct f as [|f]; [cbn in L; lia|]); [reflexivity|].
  assert (Hc : c <> 92%N) by (intros ->; apply H; now left).
  assert (I := IH f ltac:(cbn in L; lia) ltac:(intros K; apply H; now right)).
  cbn [parse_template map].
  assert (K : (pdo l <- parse_template f n s ;; Parsed (PText [c] :: l)) = Parsed (PText [c] :: map (fun c => PText [c]) s)) by now rewrite I.
  repeat (match goal with |- match ?x with _ => _ end = _ => is_var x; destruct x; try exact K end); now destruct Hc.
Qed.
Lemma expand_plain full m s : expand full m (map (fun c => PText [c]) s) = s.
Proof. unfold expand. induction s as [|c s IH]; [reflexivity|]. cbn. now rewrite IH. Qed.
Lemma replace_sub full t f : (forall m, f full m = expand full m t) -> forall l pos, replace_found full t pos l = sub_found f full pos l.
Proof. intros H. induction l as [|m l IH]; intros pos; [reflexivity|]. cbn [replace_found sub_found]. now rewrite H, IH. Qed.
Definition prefix_at (v repl : str) (prev : option N) (s : str) : option (str * nat) :=
  if starts_with v s && xorb (is_word wd prev) (is_word wd (hd_error s)) then Some (repl, length v) else None.
Theorem C105_namespace ns url s : ~ In 92%N url ->
  re_sub sp wd dg fold (u "\b" ++ re_escape ns ++ u ":") (u "{" ++ url ++ u "}") s = Parsed (ModelCommands.resolve_go wd (ns ++ u ":") (u "{" ++ url ++ u "}") 0 false s).
Proof.
  intros Hu. set (repl := u "{" ++ url ++ u "}"). set (v := ns ++ u ":").
  assert (Hr : ~ In 92%N repl) by (unfold repl; rewrite !in_app_iff; intros [[K|[]]|[K|[K|[]]]]; [discriminate|contradiction|discriminate]).
  assert (Hv : v <> []) by (unfold v; now destruct ns).
  unfold re_sub. rewrite prefix_compiled. cbn [pbind pt_groups]. rewrite template_plain by (auto; lia). cbn [pbind]. f_equal. fold v.
  assert (NE : forall pr i q g, ~ reads (prefix_re v) pr i [] q g) by (intros pr i q g R; apply prefix_reads in R as (K & _); congruence).
  rewrite finditer_scan by exact NE. rewrite (replace_sub s _ (fun _ _ => repl)) by (intros m; now rewrite expand_plain).
  destruct (sub_scan sp wd dg fold (mkPattern false 0 (prefix_re v)) NE (fun _ _ => repl) (prefix_at v repl) s) with (s := s) (skip := 0) (b := @nil N) (prev := @None N) as [_ H].
  - intros b prev s' _. pose proof (match_here_spec sp wd dg fold (mkPattern false 0 (prefix_re v)) false (length b) prev s') as M. unfold prefix_at.
    destruct (here (mkPattern false 0 (prefix_re v)) false (length b) prev s') as [m|].
    + destruct M as (w & q & -> & M1 & M2 & R & _). cbn [pt_ic pt_re] in R. apply prefix_reads in R as (-> & _ & B).
      rewrite (proj2 (starts_with_app v (v ++ q))) by eauto. apply (at_boundary_spec wd (mkPlace 0 prev (v ++ q) [])) in B. unfold at_boundary in B. cbn [pl_prev pl_rest] in B. rewrite B.
      cbn [andb]. rewrite M2. f_equal. f_equal. lia.
    + cbn [pt_ic pt_re] in M. destruct (starts_with v s') eqn:E1; [|reflexivity]. apply starts_with_app in E1 as [q ->].
      destruct (xorb (is_word wd prev) (is_word wd (hd_error (v ++ q)))) eqn:E2; [|reflexivity]. exfalso.
      destruct (M v q [] eq_refl) as [K _]; [|discriminate]. apply prefix_reads. repeat split. now apply (at_boundary_spec wd (mkPlace 0 prev (v ++ q) [])).
  - reflexivity.
  - lia.
  - cbn [length plus] in H. rewrite H. clear H.
    assert (K : forall s skip prev, go_sub (prefix_at v repl) skip prev s = ModelCommands.resolve_go wd v repl skip (is_word wd prev) s).
    { clear s. induction s as [|x s IH]; intros skip prev; [reflexivity|]. cbn [go_sub ModelCommands.resolve_go]. destruct skip as [|skip]; [|apply IH].
      unfold prefix_at at 1. cbn [hd_error is_word]. destruct (starts_with v (x :: s) && xorb (is_word wd prev) (wd x)); now rewrite IH. }
    apply K.
Qed.
Theorem C105_namespaces namespaces expr : Forall (fun n => ~ In 92%N (snd n)) namespaces ->
  re_resolve_namespace sp wd dg fold namespaces expr = Parsed (resolve_namespace wd namespaces expr).
Proof.
  unfold re_resolve_namespace, resolve_namespace. intros F. revert expr. induction F as [|[ns url] l H _ IH]; intros expr; [reflexivity|]. cbn [fold_left fst snd].
  rewrite C105_namespace by exact H. apply IH.
Qed.

(** *** Tag expressions *)
Definition KEY_VALUE : re :=
  RSeq (RGroup 3 (RSeq (RRep true 1 None (RChar true [ILit 61%N])) REmpty)) (RSeq (RLit 61%N) (RSeq (RLit 34%N)
    (RSeq (RGroup 4 (RSeq (RRep true 1 None (RChar true [ILit 10%N])) REmpty)) (RSeq (RLit 34%N) (RSeq (RLit 93%N) REmpty))))).
Definition ATTRIBUTE : re := RSeq (RLit 91%N) (RSeq (RRep true 0 (Some 1) (RLit 64%N)) KEY_VALUE).
Definition TAG_END : re := RSeq (RRep true 0 (Some 1) (RGroup 2 ATTRIBUTE)) (RSeq REnd REmpty).
Definition TAG_EXPRESSION : re := RSeq RStart (RSeq (RGroup 1 (RSeq (RRep true 1 None (RChar true [ILit 91%N])) REmpty)) TAG_END).
Lemma tag_compiled : compiled TAG_EXPRESSION_PATTERN = mkPattern false 4 TAG_EXPRESSION.
Proof. vm_compute. reflexivity. Qed.

Lemma span_spec f : forall s a b, span f s = (a, b) -> s = a ++ b /\ Forall (fun c => f c = true) a /\ (forall c, hd_error b = Some c -> f c = false).
Proof.
  induction s as [|c s IH]; intros a b; cbn [span]; [intros [= <- <-]; repeat split; [constructor|discriminate]|].
  destruct (f c) eqn:E.
  - destruct (span f s) as [a' b'] eqn:Es. intros [= <- <-]. destruct (IH a' b' eq_refl) as (-> & H1 & H2). repeat split; [now constructor|exact H2].
  - intros [= <- <-]. repeat split; [constructor|]. cbn. now intros d [= <-].
Qed.
Lemma span_app f a b : Forall (fun c => f c = true) a -> (forall c, hd_error b = Some c -> f c = false) -> span f (a ++ b) = (a, b).
Proof.
  intros Ha Hb. induction Ha as [|c a Hc Ha IH]; cbn [app span]; [|now rewrite Hc, IH].
  destruct b as [|c b]; [reflexivity|]. cbn [span]. now rewrite (Hb c eq_refl).
Qed.
Lemma no_char a k : Forall (fun c => negb (N.eqb c a) = true) k <-> ~ In a k.
Proof.
  rewrite Forall_forall. split.
  - intros H K. specialize (H a K). now rewrite N.eqb_refl in H.
  - intros H x Hx. apply negb_true_iff, N.eqb_neq. now intros ->.
Qed.
Definition quoted (k v : str) : str := k ++ [61; 34]%N ++ v ++ [34; 93]%N.
Definition line_end (q : str) : Prop := q = [] \/ q = [10%N].
Lemma key_value_spec s k v : parse_key_value s = Some (k, v) <->
  exists q, line_end q /\ s = quoted k v ++ q /\ k <> [] /\ ~ In 61%N k /\ v <> [] /\ ~ In 10%N v.
Proof.
  assert (NL : forall v' : str, existsb (N.eqb 10) v' = true <-> In 10%N v').
  { intros v'. rewrite existsb_exists. split; [intros (x & Hx & E); apply N.eqb_eq in E; now subst|intros H; exists 10%N; auto]. }
  unfold parse_key_value. split.
  - destruct (span (fun c => negb (N.eqb c 61)) s) as [k' rest] eqn:E. apply span_spec in E as (-> & H1 & H2). apply no_char in H1.
    destruct k' as [|c k']; [discriminate|]. destruct rest as [|d rest]; [discriminate|]. specialize (H2 d eq_refl). apply negb_false_iff, N.eqb_eq in H2 as ->.
    destruct rest as [|e rest]; [discriminate|]. destruct (N.eq_dec e 34) as [->|Ne]; [|intros K; exfalso; apply Ne; destruct e as [|e]; [discriminate|]; do 6 (destruct e as [e|e|]; try discriminate); reflexivity].
    set (t := match rev rest with 10%N :: v' => rev v' | _ => rest end).
    assert (Et : exists q, line_end q /\ rest = t ++ q).
    { unfold t. destruct (rev rest) as [|x r] eqn:Er; [exists []; rewrite app_nil_r; split; [now left|reflexivity]|].
      destruct (N.eq_dec x 10) as [->|Nx].
      - exists [10%N]. split; [now right|]. rewrite <- (rev_involutive rest), Er. reflexivity.
      - exists []. rewrite app_nil_r. split; [now left|]. destruct x as [|x]; [reflexivity|]. do 4 (destruct x as [x|x|]; try reflexivity). now destruct Nx. }
    destruct Et as (q & Hq & Et). clearbody t. destruct (rev t) as [|x r] eqn:Er; [discriminate|].
    destruct (N.eq_dec x 93) as [->|Nx]; [|intros K; exfalso; apply Nx; destruct x as [|x]; [discriminate|]; do 7 (destruct x as [x|x|]; try discriminate); reflexivity].
    destruct r as [|y r]; [discriminate|]. destruct (N.eq_dec y 34) as [->|Ny]; [|intros K; exfalso; apply Ny; destruct y as [|y]; [discriminate|]; do 6 (destruct y as [y|y|]; try discriminate); reflexivity].
    destruct r as [|z r]; [discriminate|]. destruct (existsb (N.eqb 10) (z :: r)) eqn:En; [discriminate|]. intros [= <- <-].
    exists q. split; [exact Hq|]. split; [|split; [discriminate|]; split; [exact H1|]; split].
    + unfold quoted. subst rest. rewrite <- (rev_involutive t), Er. cbn [rev]. rewrite <- !app_assoc. reflexivity.
    + intros K. apply (f_equal (@length N)) in K. rewrite app_length in K. cbn in K. lia.
    + intros K. apply not_true_iff_false in En. apply En, NL. apply in_rev. cbn [rev]. exact K.
  - intros (q & Hq & -> & Hk & Hk1 & Hv & Hv1). unfold quoted. rewrite <- app_assoc.
    rewrite span_app; [|now apply no_char|now intros c [= <-]]. destruct k as [|c k]; [contradiction|]. cbn [app].
    assert (E : match rev (((v ++ [34; 93]%N)) ++ q) with 10%N :: v' => rev v' | _ => (v ++ [34; 93]%N) ++ q end = v ++ [34; 93]%N).
    { destruct Hq as [-> | ->].
      - rewrite app_nil_r, rev_app_distr. reflexivity.
      - rewrite rev_app_distr. cbn [rev app]. apply rev_involutive. }
    change ([34%N; 93%N]) with ([34; 93]%N) in E. rewrite E. rewrite rev_app_distr. cbn [rev app].
    destruct (rev v) as [|x r] eqn:Er; [apply (f_equal (@rev N)) in Er; rewrite rev_involutive in Er; contradiction|].
    destruct (existsb (N.eqb 10) (x :: r)) eqn:En.
    + exfalso. apply NL in En. rewrite <- Er in En. apply in_rev in En. contradiction.
    + now rewrite <- Er, rev_involutive.
Qed.

Definition kv_groups (i : nat) (k v : str) : groups := [(4, (i + length k + 2, i + length k + 2 + length v)); (3, (i, i + length k))].
Lemma kv_reads p i w q g : reads KEY_VALUE p i w q g <->
  exists k v, w = quoted k v /\ k <> [] /\ ~ In 61%N k /\ v <> [] /\ ~ In 10%N v /\ g = kv_groups i k v.
Proof.
  split.
  - intros R. unfold KEY_VALUE in R. read_cases. unfold quoted.
    match goal with |- exists k v, (?a ++ []) ++ _ = _ /\ _ => exists a end. match goal with |- exists v, _ ++ _ ++ _ ++ (?b ++ []) ++ _ = _ /\ _ => exists b end.
    rewrite !app_nil_r. split; [reflexivity|].
    split; [intros ->; cbn in *; lia|]. split; [now apply (not_lit 61)|]. split; [intros ->; cbn in *; lia|]. split; [now apply (not_lit 10)|].
    unfold kv_groups. cbn [app length]. rewrite <- (Nat.add_assoc _ 1 1). reflexivity.
  - intros (k & v & -> & Hk & Hk1 & Hv & Hv1 & ->). unfold KEY_VALUE, quoted.
    assert (Lk : 1 <= length k) by (destruct k; [contradiction|cbn; lia]). assert (Lv : 1 <= length v) by (destruct v; [contradiction|cbn; lia]).
    eapply (mk_seq _ _ _ _ _ _ _ _ _ k ([61; 34]%N ++ v ++ [34; 93]%N) _ _ [(3, (i, i + length k))] [(4, (i + length k + 2, i + length k + 2 + length v))]); [reflexivity|reflexivity| |].
    { constructor. eapply (mk_seq _ _ _ _ _ _ _ _ _ k [] _ _ [] []); [now rewrite app_nil_r|reflexivity|apply mk_run; [exact I|now apply not_lit|exact Lk|exact I]|constructor]. }
    eapply (mk_seq _ _ _ _ _ _ _ _ _ [61%N] ([34]%N ++ v ++ [34; 93]%N) _ _ [] [(4, (i + length k + 2, i + length k + 2 + length v))]); [reflexivity|reflexivity|apply mk_lit|].
    eapply (mk_seq _ _ _ _ _ _ _ _ _ [34%N] (v ++ [34; 93]%N) _ _ [] [(4, (i + length k + 2, i + length k + 2 + length v))]); [reflexivity|reflexivity|apply mk_lit|].
    cbn [length]. replace (i + length k + 1 + 1) with (i + length k + 2) by lia.
    eapply (mk_seq _ _ _ _ _ _ _ _ _ v ([34; 93]%N) _ _ [(4, (i + length k + 2, i + length k + 2 + length v))] []); [reflexivity|reflexivity| |].
    { constructor. eapply (mk_seq _ _ _ _ _ _ _ _ _ v [] _ _ [] []); [now rewrite app_nil_r|reflexivity|apply mk_run; [exact I|now apply not_lit|exact Lv|exact I]|constructor]. }
    eapply (mk_seq _ _ _ _ _ _ _ _ _ [34%N] [93%N] _ _ [] []); [reflexivity|reflexivity|apply mk_lit|].
    eapply (mk_seq _ _ _ _ _ _ _ _ _ [93%N] [] _ _ [] []); [reflexivity|reflexivity|apply mk_lit|constructor].
Qed.
Notation bt := (bt sp wd dg fold false).
Definition kv_place (x : place) (k v : str) : place := moved x (quoted k v) (skipn (length (quoted k v)) (pl_rest x)) (kv_groups (pl_pos x) k v).
Lemma skip_word (w q : str) : skipn (length w) (w ++ q) = q.
Proof. apply (skip_to (w ++ q) w q). reflexivity. Qed.
Lemma kv_bt x c : (forall y, c y <> None -> line_end (pl_rest y)) ->
  bt KEY_VALUE x c = match parse_key_value (pl_rest x) with Some (k, v) => c (kv_place x k v) | None => None end.
Proof.
  intros Hc. destruct (bt KEY_VALUE x c) as [y|] eqn:E.
  - apply PropFinders.bt_some in E as (w & q & g & Ew & R & Hk). apply kv_reads in R as (k & v & -> & H1 & H2 & H3 & H4 & ->).
    assert (Hq : line_end q) by (specialize (Hc (moved x (quoted k v) q (kv_groups (pl_pos x) k v))); rewrite Hk in Hc; apply Hc; discriminate).
    assert (P : parse_key_value (pl_rest x) = Some (k, v)) by (apply key_value_spec; exists q; auto 10). rewrite P. unfold kv_place. rewrite Ew, skip_word. now rewrite Hk.
  - destruct (parse_key_value (pl_rest x)) as [[k v]|] eqn:P; [|reflexivity]. apply key_value_spec in P as (q & Hq & Ew & H1 & H2 & H3 & H4).
    symmetry. unfold kv_place. rewrite Ew, skip_word. apply (PropFinders.bt_none sp wd dg fold false KEY_VALUE x c (quoted k v) q); [exact E|exact Ew|].
    apply kv_reads. exists k, v. auto 10.
Qed.
(** an optional part is tried first *)
Lemma opt_bt a x c : pl_rest x <> [] -> bt (RRep true 0 (Some 1) a) x c =
  match bt a x (fun y => if pl_pos y =? pl_pos x then None else c y) with Some z => Some z | None => c x end.
Proof.
  intros H. cbn [ModelRegex.bt repeat_body]. destruct (pl_rest x) as [|d s]; [contradiction|]. cbn [length more option_map pred].
  assert (E : forall y, (if pl_pos y =? pl_pos x then None else more true (bt a) (length s) (Some 0) y c) = (if pl_pos y =? pl_pos x then None else c y)).
  { intros y. destruct (pl_pos y =? pl_pos x); [reflexivity|]. destruct (length s); reflexivity. }
  rewrite !bt_ways. now rewrite (first_some_ext _ _ (ways sp wd dg fold false a x) E).
Qed.
Lemma opt_bt_end a x c : pl_rest x = [] -> bt (RRep true 0 (Some 1) a) x c = c x.
Proof. intros H. cbn [ModelRegex.bt repeat_body]. rewrite H. reflexivity. Qed.
Lemma lit_ok a c : char_ok sp wd dg fold false false [ILit a] c = N.eqb c a.
Proof. unfold char_ok. cbn [existsb item_ok]. rewrite orb_false_r. now destruct (N.eqb c a). Qed.
Lemma unlit_ok a c : char_ok sp wd dg fold false true [ILit a] c = negb (N.eqb c a).
Proof. unfold char_ok. cbn [existsb item_ok]. rewrite orb_false_r. now destruct (N.eqb c a). Qed.
(** what follows the opening bracket, in the order of the attempts *)
Lemma attr_bt x c rest : (forall y, c y <> None -> line_end (pl_rest y)) -> pl_rest x = 91%N :: rest ->
  bt ATTRIBUTE x c =
  match (match rest with
         | 64%N :: rest' => match parse_key_value rest' with Some (k, v) => c (kv_place (adv x 2) k v) | None => None end
         | _ => None end) with
  | Some z => Some z
  | None => match parse_key_value rest with Some (k, v) => c (kv_place (adv x 1) k v) | None => None end
  end.
Proof.
  intros Hc Hx. unfold ATTRIBUTE, RLit. rewrite PropFinders.bt_char_seq, Hx, lit_ok. change (N.eqb 91 91) with true. cbv iota.
  assert (E1 : mkPlace (S (pl_pos x)) (Some 91%N) rest (pl_groups x) = adv x 1).
  { unfold adv, moved. rewrite Hx. cbn. now rewrite Nat.add_1_r. }
  rewrite E1. assert (R1 : pl_rest (adv x 1) = rest) by now rewrite <- E1.
  change (bt (RSeq ?a ?b) ?z ?k) with (bt a z (fun y => bt b y k)).
  destruct rest as [|d rest].
  - rewrite opt_bt_end by exact R1. rewrite kv_bt by exact Hc. now rewrite R1.
  - rewrite opt_bt by (rewrite R1; discriminate). rewrite kv_bt by exact Hc. rewrite R1. cbn [ModelRegex.bt]. rewrite R1, lit_ok.
    destruct (N.eqb_spec d 64) as [->|Nd].
    + assert (E2 : mkPlace (S (pl_pos (adv x 1))) (Some 64%N) rest (pl_groups (adv x 1)) = adv x 2).
      { unfold adv, moved. rewrite Hx. cbn. f_equal. lia. }
      rewrite E2. assert (R2 : pl_rest (adv x 2) = rest) by now rewrite <- E2. assert (N2 : pl_pos (adv x 2) <> pl_pos (adv x 1)) by (rewrite <- E2; cbn [pl_pos]; lia). rewrite (proj2 (Nat.eqb_neq _ _) N2).
      change (ModelRegex.bt sp wd dg fold false KEY_VALUE (adv x 2) c) with (bt KEY_VALUE (adv x 2) c). rewrite kv_bt by exact Hc. now rewrite R2.
    + assert (E3 : forall (A : option place), match d with 64%N => A | _ => None end = None).
      { intros A. destruct d as [|d]; [reflexivity|]. repeat (destruct d as [d|d|]; try reflexivity). now destruct Nd. }
      now rewrite E3.
Qed.

Lemma at_end_line q : at_end q = true <-> line_end q.
Proof.
  unfold line_end. destruct q as [|c [|d q]]; cbn [at_end].
  - intuition.
  - rewrite N.eqb_eq. split; [intros ->; now right|intros [K|K]; congruence].
  - split; [discriminate|]. intros [K|K]; discriminate.
Qed.
Definition with_group (n i : nat) (y : place) : place := mkPlace (pl_pos y) (pl_prev y) (pl_rest y) ((n, (i, pl_pos y)) :: pl_groups y).
Definition finish (z y : place) : option place := if pl_pos y =? pl_pos z then None else if at_end (pl_rest y) then Some (with_group 2 (pl_pos z) y) else None.
Lemma finish_end z y : finish z y <> None -> line_end (pl_rest y).
Proof. unfold finish. destruct (pl_pos y =? pl_pos z); [contradiction|]. destruct (at_end (pl_rest y)) eqn:E; [|contradiction]. intros _. now apply at_end_line. Qed.
Lemma tag_end_bt z : bt TAG_END z Some =
  match pl_rest z with
  | [] => Some z
  | d :: r => if N.eqb d 91 then bt ATTRIBUTE z (finish z) else if at_end (d :: r) then Some z else None
  end.
Proof.
  unfold TAG_END. change (bt (RSeq ?a ?b) z ?k) with (bt a z (fun y => bt b y k)).
  assert (E : forall y, bt (RSeq REnd REmpty) y Some = if at_end (pl_rest y) then Some y else None) by reflexivity.
  destruct (pl_rest z) as [|d r] eqn:Er.
  - rewrite opt_bt_end by exact Er. rewrite E, Er. reflexivity.
  - rewrite opt_bt by (rewrite Er; discriminate). rewrite E, Er.
    change (bt (RGroup 2 ATTRIBUTE) z ?k) with (bt ATTRIBUTE z (fun y => k (with_group 2 (pl_pos z) y))). cbv beta.
    destruct (N.eqb_spec d 91) as [->|Nd].
    + replace (at_end (91%N :: r)) with false by (destruct r; reflexivity).
      rewrite !bt_ways. rewrite (first_some_ext (fun y => _) (finish z) (ways sp wd dg fold false ATTRIBUTE z)) by reflexivity.
      now destruct (first_some (finish z) (ways sp wd dg fold false ATTRIBUTE z)).
    + replace (bt ATTRIBUTE z _) with (@None place); [reflexivity|]. unfold ATTRIBUTE, RLit. rewrite PropFinders.bt_char_seq, Er, lit_ok. now rewrite (proj2 (N.eqb_neq _ _) Nd).
Qed.
Lemma text_of (b w q : str) : firstn (length b + length w - length b) (skipn (length b) (b ++ w ++ q)) = w.
Proof.
  rewrite (skip_to (b ++ w ++ q) b (w ++ q)) by reflexivity. replace (length b + length w - length b) with (length w) by lia.
  rewrite firstn_app, Nat.sub_diag, firstn_O, app_nil_r. apply firstn_all.
Qed.
Definition tag_of (s : str) (y : place) : str * list (str * str) :=
  let m := mkFound 0 (pl_pos y) (pl_groups y) in
  (group_text s m 1, match group_text s m 2 with [] => [] | _ => [(group_text s m 3, group_text s m 4)] end).
Lemma adv_name (x : place) (w q : str) : pl_rest x = w ++ q -> adv x (length w) = moved x w q [].
Proof. intros E. unfold adv. rewrite E, skip_word. f_equal. rewrite firstn_app, Nat.sub_diag, firstn_O, app_nil_r. apply firstn_all. Qed.
Lemma tag_of_attr s name pre k v q : s = name ++ pre ++ quoted k v ++ q -> line_end q -> pre = [91%N] \/ pre = [91; 64]%N ->
  let z := with_group 1 0 (moved (mkPlace 0 None s []) name (pre ++ quoted k v ++ q) []) in
  option_map (tag_of s) (finish z (kv_place (adv z (length pre)) k v)) = Some (name, [(k, v)]).
Proof.
  intros Es Hq Hp z. assert (Rz : pl_rest z = pre ++ quoted k v ++ q) by reflexivity. assert (Pz : pl_pos z = length name) by reflexivity.
  rewrite (adv_name z pre (quoted k v ++ q) Rz). unfold finish, kv_place. cbn [moved pl_rest pl_pos pl_groups]. rewrite skip_word, Pz.
  rewrite (proj2 (Nat.eqb_neq _ _)) by (unfold quoted; rewrite app_length; cbn; lia). rewrite (proj2 (at_end_line q) Hq). cbn [option_map]. f_equal. unfold tag_of.
  cbn [with_group moved pl_pos pl_groups app]. unfold group_text, group. cbn [Nat.eqb group_in kv_groups app fo_groups with_group pl_groups moved z].
  assert (G1 : firstn (length name - 0) (skipn 0 s) = name) by (rewrite Es; cbn [skipn]; rewrite Nat.sub_0_r, firstn_app, Nat.sub_diag, firstn_O, app_nil_r; apply firstn_all).
  assert (G2 : firstn (length name + length pre + length (quoted k v) - length name) (skipn (length name) s) = pre ++ quoted k v).
  { rewrite Es. rewrite (app_assoc pre). pose proof (text_of name (pre ++ quoted k v) q) as T. rewrite app_length, Nat.add_assoc in T. exact T. }
  assert (G3 : firstn (length name + length pre + length k - (length name + length pre)) (skipn (length name + length pre) s) = k).
  { rewrite Es. unfold quoted. rewrite (app_assoc name), <- app_length, <- (app_assoc k). apply text_of. }
  assert (G4 : firstn (length name + length pre + length k + 2 + length v - (length name + length pre + length k + 2)) (skipn (length name + length pre + length k + 2) s) = v).
  { assert (E4 : s = (name ++ pre ++ k ++ [61; 34]%N) ++ v ++ [34; 93]%N ++ q) by (rewrite Es; unfold quoted; now rewrite <- !app_assoc).
    rewrite E4 at 1. replace (length name + length pre + length k + 2) with (length (name ++ pre ++ k ++ [61; 34]%N)) by (rewrite !app_length; cbn; lia). apply text_of. }
  change (pl_pos (moved _ name _ [])) with (length name). cbn [plus]. rewrite ?Pz, G1, G2, G3, G4. f_equal. destruct Hp as [-> | ->]; reflexivity.
Qed.
Theorem C105_tag s : re_tag_expression sp wd dg fold s = parse_tag_expression s.
Proof.
  unfold re_tag_expression, re_match, match_here. rewrite tag_compiled. cbn [pt_ic pt_re andb]. set (x := mkPlace 0 None s []).
  change (bt TAG_EXPRESSION x (fun y => Some y)) with (bt (RRep true 1 None (RChar true [ILit 91%N])) x (fun y => bt TAG_END (with_group 1 0 y) Some)).
  set (f := char_ok sp wd dg fold false true [ILit 91%N]).
  assert (Ef : forall c, f c = negb (N.eqb c 91)) by (intros c; apply unlit_ok).
  unfold parse_tag_expression. destruct (span (fun c => negb (N.eqb c 91)) s) as [name rest] eqn:E. apply span_spec in E as (Es & H1 & H2).
  assert (Rn : run f (pl_rest x) = length name).
  { cbn [x pl_rest]. rewrite Es. apply run_app; [|intros c Hc; rewrite Ef; now apply H2]. eapply Forall_impl; [|exact H1]. intros c Hc. cbv beta in Hc. now rewrite Ef. }
  destruct rest as [|d rest].
  - rewrite app_nil_r in Es. subst name. destruct s as [|c s].
    + rewrite bt_run_short; [reflexivity|exact I|]. fold f. rewrite Rn. cbn. lia.
    + assert (Ex : adv x (length (c :: s)) = moved x (c :: s) [] []) by (apply adv_name; cbn; now rewrite app_nil_r).
      rewrite bt_run_greedy; fold f; rewrite Rn; [|cbn; lia|rewrite Ex, tag_end_bt; discriminate].
      rewrite Ex, tag_end_bt. cbn [with_group moved pl_rest]. unfold group_text, group. cbn [Nat.eqb fo_groups pl_groups group_in with_group moved pl_pos x app plus].
      rewrite Nat.sub_0_r. cbn [skipn]. now rewrite firstn_all.
  - specialize (H2 d eq_refl). apply negb_false_iff, N.eqb_eq in H2 as ->.
    assert (Ex : adv x (length name) = moved x name (91%N :: rest) []) by (apply adv_name; exact Es).
    rewrite bt_run_whole; [|exact I|].
    2: { fold f. rewrite Rn. intros n Hn. rewrite tag_end_bt. assert (exists c l, name = firstn n name ++ c :: l /\ negb (N.eqb c 91) = true) as (c & l & En & Hc).
         { destruct (skipn n name) as [|c l] eqn:Ek; [apply (f_equal (@length N)) in Ek; rewrite skipn_length in Ek; cbn in Ek; lia|]. exists c, l. split; [now rewrite <- Ek, firstn_skipn|].
           rewrite Forall_forall in H1. apply H1. rewrite <- (firstn_skipn n name), Ek. apply in_app_iff. right. now left. }
         assert (Ra : pl_rest (with_group 1 0 (adv x n)) = c :: l ++ 91%N :: rest).
         { cbn [with_group pl_rest adv moved x]. rewrite Es, En at 1. rewrite <- app_assoc. cbn [app].
           assert (Ln : length (firstn n name) = n) by (rewrite firstn_length; lia). rewrite <- Ln at 1. apply skip_word. }
         rewrite Ra. apply negb_true_iff in Hc. rewrite Hc. destruct l; reflexivity. }
    fold f. rewrite Rn, andb_true_r. destruct name as [|c name]; [reflexivity|]. change (1 <=? length (c :: name)) with true. cbv iota. rewrite Ex, tag_end_bt.
    set (z := with_group 1 0 (moved x (c :: name) (91%N :: rest) [])). change (pl_rest z) with (91%N :: rest). cbv iota beta. change (N.eqb 91 91) with true. cbv iota.
    rewrite (attr_bt z (finish z) rest (finish_end z) eq_refl).
    assert (G : forall r : option place, match (match r with Some y => Some (mkFound 0 (pl_pos y) (pl_groups y)) | None => None end) with
        | Some m => Ok (group_text s m 1, match group_text s m 2 with [] => [] | _ :: _ => [(group_text s m 3, group_text s m 4)] end) | None => Err ValueError end =
        match option_map (tag_of s) r with Some t => Ok t | None => Err ValueError end) by (intros [y|]; reflexivity).
    rewrite G. clear G.
    assert (P1 : forall k v, parse_key_value rest = Some (k, v) -> option_map (tag_of s) (finish z (kv_place (adv z 1) k v)) = Some (c :: name, [(k, v)])).
    { intros k v P. apply key_value_spec in P as (q & Hq & Er & _). unfold z. rewrite Er. apply (tag_of_attr s (c :: name) [91%N] k v q); [now rewrite Es, Er|exact Hq|now left]. }
    assert (Q : option_map (tag_of s) (match parse_key_value rest with Some (k, v) => finish z (kv_place (adv z 1) k v) | None => None end) =
                match parse_key_value rest with Some kv => Some (c :: name, [kv]) | None => None end).
    { destruct (parse_key_value rest) as [[k v]|] eqn:P; [now apply P1|reflexivity]. }
    destruct rest as [|e rest]; [reflexivity|]. destruct (N.eq_dec e 64) as [->|Ne].
    + destruct (parse_key_value rest) as [[k v]|] eqn:P.
      * pose proof P as P'. apply key_value_spec in P' as (q & Hq & Er & _).
        assert (T : option_map (tag_of s) (finish z (kv_place (adv z 2) k v)) = Some (c :: name, [(k, v)])).
        { unfold z. rewrite Er. apply (tag_of_attr s (c :: name) [91; 64]%N k v q); [now rewrite Es, Er|exact Hq|now right]. }
        destruct (finish z (kv_place (adv z 2) k v)) as [y|]; [|discriminate]. change (N.eqb 91 91) with true. cbv iota. now rewrite T.
      * rewrite Q. now destruct (parse_key_value (64%N :: rest)).
    + assert (E3 : forall A (a b : A), match e with 64%N => a | _ => b end = b).
      { intros A a b. destruct e as [|e]; [reflexivity|]. repeat (destruct e as [e|e|]; try reflexivity). now destruct Ne. }
      rewrite !E3, Q. now destruct (parse_key_value (e :: rest)).
Qed.

(** *** Names of files (Makefile L19, tests/auto_annotate_header_test.py L29) *)
Definition HEADER_NAME_PATTERN : str := u "/(.*).header.tei.xml/\1.xml/"%string.
(** letters and dots *)
Fixpoint dotted_re (s : str) : re := match s with [] => REmpty | c :: s' => RSeq (if N.eqb c 46 then RAny else RLit c) (dotted_re s') end.
Definition like (c a : N) : Prop := if N.eqb a 46 then c <> 10%N else c = a.
Lemma dotted_reads : forall s p i w q g, reads (dotted_re s) p i w q g <-> g = [] /\ Forall2 like w s.
Proof.
  induction s as [|a s IH]; intros p i w q g; cbn [dotted_re].
  - rewrite reads_empty. split; [intros [-> ->]; split; [reflexivity|constructor]|intros [-> F]; inversion F; auto].
  - assert (C : forall p i w q g, reads (if N.eqb a 46 then RAny else RLit a) p i w q g <-> exists c, w = [c] /\ g = [] /\ like c a).
    { intros p' i' w' q' g'. unfold like, RAny, RLit. destruct (N.eqb a 46); rewrite reads_char.
      - split; intros (c & -> & -> & H); exists c; repeat split; [apply in_any in H; exact H|apply in_any; exact H].
      - split; intros (c & -> & -> & H); exists c; repeat split; [apply in_lit in H; exact H|apply in_lit; exact H]. }
    rewrite reads_seq. split.
    + intros (w1 & w2 & g1 & g2 & -> & -> & R1 & R2). apply C in R1 as (c & -> & -> & H). apply IH in R2 as [-> F]. split; [reflexivity|]. now constructor.
    + intros [-> F]. inversion F as [|c ? w' ? Hc Hw]; subst. exists [c], w', [], []. repeat split; [apply C; eauto|now apply IH].
Qed.
Definition HEADER_SUFFIX : str := u ".header.tei.xml"%string.
Definition HEADER_NAME : re := RSeq (RGroup 1 (RSeq (RRep true 0 None (RChar true [ILit 10%N])) REmpty)) (dotted_re HEADER_SUFFIX).
Lemma header_name_compiled : re_compile (u "(.*).header.tei.xml"%string) = Parsed (mkPattern false 1 HEADER_NAME).
Proof. vm_compute. reflexivity. Qed.
Lemma like_suffix w : Forall2 like w HEADER_SUFFIX -> exists c w', w = c :: 104%N :: w'.
Proof. intros F. inversion F as [|c ? w1 ? _ F1]; subst. inversion F1 as [|h ? w2 ? H _]; subst. cbn in H. subst. eauto. Qed.
Lemma header_name_h p i w q g : reads HEADER_NAME p i w q g -> In 104%N w.
Proof.
  unfold HEADER_NAME. rewrite reads_seq. intros (w1 & w2 & g1 & g2 & -> & _ & _ & R). apply dotted_reads in R as [_ F]. apply like_suffix in F as (c & w' & ->).
  apply in_app_iff. right. cbn. auto.
Qed.
Lemma scan_no_h P : pt_ic P = false -> pt_re P = HEADER_NAME -> forall s pos prev, ~ In 104%N s -> scan sp wd dg fold P pos 0 prev s = [].
Proof.
  intros Hp Hr. induction s as [|c s IH]; intros pos prev H; [reflexivity|]. cbn [scan].
  pose proof (match_here_spec sp wd dg fold P false pos prev (c :: s)) as M. destruct (here P false pos prev (c :: s)) as [m|].
  - destruct M as (w & q & E & _ & _ & R & _). rewrite Hp, Hr in R. apply header_name_h in R. exfalso. apply H. rewrite E. apply in_app_iff. now left.
  - apply IH. intros K. apply H. now right.
Qed.
Lemma header_here stem t : ~ In 10%N stem -> ~ In 104%N t ->
  here (mkPattern false 1 HEADER_NAME) false 0 None (stem ++ HEADER_SUFFIX ++ t) = Some (mkFound 0 (length stem + 15) [(1, (0, length stem))]).
Proof.
  intros Hs Ht. set (s := stem ++ HEADER_SUFFIX ++ t). set (x := mkPlace 0 None s []).
  set (f := char_ok sp wd dg fold false true [ILit 10%N]).
  assert (Ls : length s = length stem + 15 + length t) by (unfold s; rewrite !app_length; change (length HEADER_SUFFIX) with 15; lia).
  assert (Rs : length stem <= run f s).
  { unfold s. clear -Hs. induction stem as [|c stem IH]; [cbn; lia|]. cbn [app run length]. unfold f at 1. rewrite unlit_ok. destruct (N.eqb_spec c 10) as [->|]; [destruct Hs; now left|]. cbn [negb].
    apply le_n_S, IH. intros K. apply Hs. now right. }
  set (k := fun y => bt (dotted_re HEADER_SUFFIX) (with_group 1 0 y) Some).
  assert (Hk : k (adv x (length stem)) = Some (moved (with_group 1 0 (adv x (length stem))) HEADER_SUFFIX t [])).
  { assert (Ra : pl_rest (with_group 1 0 (adv x (length stem))) = HEADER_SUFFIX ++ t) by (cbn [with_group pl_rest adv moved x]; unfold s; apply skip_word).
    unfold k. destruct (bt (dotted_re HEADER_SUFFIX) (with_group 1 0 (adv x (length stem))) Some) as [y|] eqn:E.
    - apply PropFinders.bt_some in E as (w & q & g & Ew & R & [= <-]). apply dotted_reads in R as [-> F]. rewrite Ra in Ew.
      assert (Lw : length w = length HEADER_SUFFIX) by (clear -F; induction F; cbn; congruence).
      assert (w = HEADER_SUFFIX /\ q = t) as [-> ->]; [|reflexivity].
      split; [apply (f_equal (firstn (length w))) in Ew|apply (f_equal (skipn (length w))) in Ew]; [|rewrite skip_word, Lw, skip_word in Ew; congruence].
      rewrite (firstn_app _ w), Nat.sub_diag, firstn_O, app_nil_r, firstn_all in Ew. rewrite <- Ew, Lw, firstn_app, Nat.sub_diag, firstn_O, app_nil_r. apply firstn_all.
    - exfalso. eapply (PropFinders.bt_none sp wd dg fold false _ _ _ HEADER_SUFFIX t []) in E; [discriminate|exact Ra|]. apply dotted_reads. split; [reflexivity|].
      repeat (constructor; [cbv; try reflexivity; discriminate|]). constructor. }
  unfold match_here. cbn [pt_ic pt_re andb]. fold x. change (bt HEADER_NAME x (fun y => Some y)) with (bt (RRep true 0 None (RChar true [ILit 10%N])) x k).
  destruct (bt (RRep true 0 None (RChar true [ILit 10%N])) x k) as [y|] eqn:E.
  - apply PropFinders.bt_run_longest in E as (n & [_ Hn] & Hy & Hl). fold f in Hn, Hl. cbn [x pl_rest] in Hn, Hl.
    assert (n = length stem) as ->.
    { destruct (Nat.lt_trichotomy n (length stem)) as [K|[K|K]]; [|exact K|].
      - specialize (Hl (length stem) ltac:(lia)). fold x in Hl. congruence.
      - exfalso. unfold k in Hy. apply PropFinders.bt_some in Hy as (w & q & g & Ew & R & _). apply dotted_reads in R as [_ F]. apply like_suffix in F as (c & w' & ->).
        cbn [with_group pl_rest adv moved x] in Ew.
        assert (Hi : In 104%N (skipn (S n) s)).
        { rewrite <- (firstn_skipn n s), Ew. assert (Ln : length (firstn n s) = n) by (rewrite firstn_length; pose proof (run_le f s); lia).
          replace (S n) with (length (firstn n s) + 1) by lia. rewrite skipn_app_len. cbn [app skipn]. now left. }
        assert (Es : s = (stem ++ [46; 104]%N) ++ u "eader.tei.xml"%string ++ t) by (unfold s; now rewrite <- app_assoc).
        replace (S n) with (length (stem ++ [46; 104]%N) + (S n - length (stem ++ [46; 104]%N))) in Hi by (rewrite app_length; change (length [46; 104]%N) with 2; lia).
        rewrite Es, skipn_app_len in Hi. set (j := S n - _) in Hi. clearbody j.
        assert (Hi' : In 104%N (u "eader.tei.xml"%string ++ t)) by (rewrite <- (firstn_skipn j); apply in_app_iff; now right).
        apply in_app_iff in Hi' as [Hi'|Hi']; [vm_compute in Hi'; intuition discriminate|contradiction]. }
    fold x in Hy. rewrite Hk in Hy. injection Hy as <-. cbn [moved pl_pos with_group adv pl_groups x app plus]. f_equal. f_equal; [|f_equal].
    + rewrite firstn_length. change (length HEADER_SUFFIX) with 15. cbn [x pl_rest]. lia.
    + f_equal. f_equal. rewrite firstn_length. cbn [x pl_rest]. lia.
  - exfalso. rewrite bt_ways, ways_run in E by exact I. rewrite first_some_none in E. rewrite E in Hk; [discriminate|].
    apply in_map. unfold counts. cbn [capped]. fold f. cbn [x pl_rest]. apply -> in_rev. apply in_seq. lia.
Qed.
Lemma header_skip stem t : ~ In 10%N stem -> ~ In 104%N t ->
  re_finditer sp wd dg fold (mkPattern false 1 HEADER_NAME) (stem ++ HEADER_SUFFIX ++ t) = [mkFound 0 (length stem + 15) [(1, (0, length stem))]].
Proof.
  intros Hs Ht. rewrite finditer_scan by (intros pr i q g R; now apply header_name_h in R). pose proof (header_here stem t Hs Ht) as H.
  assert (E : exists c s, stem ++ HEADER_SUFFIX ++ t = c :: s) by (destruct stem; cbn; eauto). destruct E as (c & s & E). rewrite E in *. cbn [scan]. rewrite H. cbn [fo_end]. f_equal.
  assert (Ls : length s = length stem + 14 + length t) by (apply (f_equal (@length N)) in E; rewrite !app_length in E; change (length HEADER_SUFFIX) with 15 in E; cbn in E; lia).
  rewrite scan_skip by lia. apply scan_no_h; [reflexivity|reflexivity|].
  replace (skipn (length stem + 15 - 0 - 1) s) with t; [exact Ht|].
  replace (length stem + 15 - 0 - 1) with (length stem + 14) by lia.
  assert (Et : skipn (length (stem ++ HEADER_SUFFIX)) (c :: s) = t) by (rewrite <- E, app_assoc; apply skip_word).
  rewrite app_length in Et. change (length HEADER_SUFFIX) with 15 in Et. rewrite Nat.add_succ_r in Et. now rewrite <- Et.
Qed.
(** C105: the part before the suffix is kept, and what follows it *)
Theorem C105_name stem t : ~ In 10%N stem -> ~ In 104%N t ->
  re_change_name sp wd dg fold (stem ++ u ".header.tei.xml"%string ++ t) HEADER_NAME_PATTERN = Ok (stem ++ u ".xml"%string ++ t).
Proof.
  intros Hs Ht. unfold re_change_name, regex_change_name.
  assert (P : parse_substitution HEADER_NAME_PATTERN = Ok (mkSubst (u "(.*).header.tei.xml"%string) (u "\1.xml"%string) [] [])) by (vm_compute; reflexivity).
  rewrite P. cbn [bind su_match su_replace]. unfold re_sub_or_error, re_sub. rewrite header_name_compiled. cbn [pbind pt_groups].
  assert (T : parse_template (S (length (u "\1.xml"%string))) 1 (u "\1.xml"%string) = Parsed [PGroup 1; PText [46%N]; PText [120%N]; PText [109%N]; PText [108%N]]) by (vm_compute; reflexivity).
  rewrite T. cbn [pbind]. fold HEADER_SUFFIX. rewrite header_skip by assumption. cbn [replace_found fo_start fo_end].
  f_equal. change (firstn (0 - 0) (skipn 0 (stem ++ HEADER_SUFFIX ++ t))) with (@nil N). cbn [app]. unfold expand. cbn [flat_map]. unfold group_text, group. cbn [Nat.eqb fo_groups group_in].
  rewrite Nat.sub_0_r. cbn [skipn]. rewrite firstn_app, Nat.sub_diag, firstn_O, app_nil_r, firstn_all. rewrite <- app_assoc. f_equal. cbn [app].
  rewrite skipn_app_len. change 15 with (length HEADER_SUFFIX). rewrite skip_word. reflexivity.
Qed.
(** C105: other names are not changed *)
Theorem C105_other_name name :
  (forall a b c d e, c <> 10%N -> d <> 10%N -> e <> 10%N -> name <> a ++ [c] ++ u "header"%string ++ [d] ++ u "tei"%string ++ [e] ++ u "xml"%string ++ b) ->
  re_change_name sp wd dg fold name HEADER_NAME_PATTERN = Ok name.
Proof.
  intros H. unfold re_change_name, regex_change_name.
  assert (P : parse_substitution HEADER_NAME_PATTERN = Ok (mkSubst (u "(.*).header.tei.xml"%string) (u "\1.xml"%string) [] [])) by (vm_compute; reflexivity).
  rewrite P. cbn [bind su_match su_replace]. unfold re_sub_or_error, re_sub. rewrite header_name_compiled. cbn [pbind pt_groups].
  assert (T : parse_template (S (length (u "\1.xml"%string))) 1 (u "\1.xml"%string) = Parsed [PGroup 1; PText [46%N]; PText [120%N]; PText [109%N]; PText [108%N]]) by (vm_compute; reflexivity).
  rewrite T. cbn [pbind]. rewrite finditer_scan by (intros pr i q g R; now apply header_name_h in R).
  assert (K : forall s b prev, name = b ++ s -> scan sp wd dg fold (mkPattern false 1 HEADER_NAME) (length b) 0 prev s = []).
  { induction s as [|c s IH]; intros b prev E; [reflexivity|]. cbn [scan].
    pose proof (match_here_spec sp wd dg fold (mkPattern false 1 HEADER_NAME) false (length b) prev (c :: s)) as M. destruct (here (mkPattern false 1 HEADER_NAME) false (length b) prev (c :: s)) as [m|].
    - exfalso. destruct M as (w & q & Ew & _ & _ & R & _). cbn [pt_ic pt_re] in R. unfold HEADER_NAME in R. apply reads_seq in R as (w1 & w2 & g1 & g2 & -> & _ & _ & R). apply dotted_reads in R as [_ F].
      change HEADER_SUFFIX with [46; 104; 101; 97; 100; 101; 114; 46; 116; 101; 105; 46; 120; 109; 108]%N in F.
      repeat match goal with F : Forall2 like _ (_ :: _) |- _ => inversion F; clear F; subst end.
      match goal with F : Forall2 like _ [] |- _ => inversion F; clear F; subst end. unfold like in *. cbn [N.eqb Pos.eqb] in *. subst.
      match goal with Ew : c :: s = (w1 ++ ?x :: _ :: _ :: _ :: _ :: _ :: _ :: ?y :: _ :: _ :: _ :: ?z :: _) ++ _ |- _ => apply (H (b ++ w1) q x y z); [assumption|assumption|assumption|] end.
      rewrite Ew, <- !app_assoc. reflexivity.
    - assert (Lb : length (b ++ [c]) = S (length b)) by (rewrite app_length; cbn; lia). rewrite <- Lb. apply IH. now rewrite <- app_assoc. }
  pose proof (K name [] None eq_refl) as K0. cbn [length] in K0. rewrite K0. reflexivity.
Qed.
End Short.

(* ------------------------------------------------------------------ *)
(** ** Examples: the characters of ASCII *)
Open Scope string_scope.
Definition same (c : N) : N := c.
Notation A f := (f ascii_space ascii_word ascii_digit same).
Example C105_ex_no_space : A re_no_space (u "10.1 / 2") = u "10.1/2".
Proof. vm_compute. reflexivity. Qed.
Example C105_ex_words : A re_words (u "a, bc") = [u "a"; u ","; u ""; u " "; u "bc"].
Proof. vm_compute. reflexivity. Qed.
Example C105_ex_digits : A re_digits_only (u "123") = true /\ A re_digits_only (u "12a") = false /\ A re_digits_only (u "123" ++ [10%N])%list = true.
Proof. vm_compute. auto. Qed.
Example C105_ex_header : A re_valid_header (u "Page Header") 3 2 = true /\ A re_valid_header (u "12. 3") 3 2 = false /\ A re_valid_header (u "Header") 3 2 = false.
Proof. vm_compute. auto. Qed.
Example C105_ex_ends : A re_ends_with_word (u "a-b") = true /\ A re_ends_with_word (u "a-") = false /\ A re_starts_with_word (u "b-") = true /\ A re_starts_with_word (u "-b") = false.
Proof. vm_compute. auto. Qed.
Example C105_ex_dot : A re_dot_end (u ". Next") = Some 1 /\ A re_dot_end (u "a.") = None.
Proof. vm_compute. auto. Qed.
Example C105_ex_placeholders : A re_resolve_placeholders (u "({label}|{x})") [(u "label", u "1*")] = u "(1\*|NOT_FOUND)".
Proof. vm_compute. reflexivity. Qed.
Example C105_ex_urls : A re_split_url (u "see http://a https://b") = [u "see "; u "http://a "; u "https://b"].
Proof. vm_compute. reflexivity. Qed.
Example C105_ex_namespaces : Forall (fun n => ~ In 92%N (snd n)) [(u "tei", u "http://t")] /\
  A re_resolve_namespace [(u "tei", u "http://t")] (u "tei:div/xtei:p") = Parsed (u "{http://t}div/xtei:p").
Proof. split; [|vm_compute; reflexivity]. constructor; [|constructor]. vm_compute. intuition discriminate. Qed.
(** with a backslash the address is a template: what is written differs *)
Theorem C105_namespaces_refuted : exists namespaces expr, A re_resolve_namespace namespaces expr <> Parsed (resolve_namespace ascii_word namespaces expr).
Proof. exists [(u "tei", u "C:\new")], (u "tei:div"). vm_compute. discriminate. Qed.
Example C105_ex_tag : A re_tag_expression (u "note[@place=""headnote""]") = Ok (u "note", [(u "place", u "headnote")]) /\
  A re_tag_expression (u "note[@=""x""]") = Ok (u "note", [(u "@", u "x")]) /\ A re_tag_expression (u "note[@place]") = Err ValueError.
Proof. vm_compute. auto. Qed.
Example C105_ex_name : ~ In 10%N (u "paper1") /\ ~ In 104%N (u ".gz") /\ A re_change_name (u "paper1.header.tei.xml.gz") HEADER_NAME_PATTERN = Ok (u "paper1.xml.gz").
Proof. split; [vm_compute; intuition discriminate|]. split; [vm_compute; intuition discriminate|]. vm_compute. reflexivity. Qed.
Example C105_ex_other_name : A re_change_name (u "paper1.tei.xml") HEADER_NAME_PATTERN = Ok (u "paper1.tei.xml").
Proof.
  apply C105_other_name. intros a b c d e _ _ _ E. assert (H : In 104%N (u "paper1.tei.xml")) by (rewrite E; apply in_app_iff; right; right; now left).
  vm_compute in H. intuition discriminate.
Qed.
(** tests/utils/regex_test.py *)
Example C105_test_name : A re_change_name (u "file1-suffix.tei.xml") (u "/(.*)-suffix.*/\1.xml.gz/") = Ok (u "file1.xml.gz").
Proof. vm_compute. reflexivity. Qed.
(** the dots of the pattern stand for any character *)
Theorem C105_name_dots_refuted : exists stem, A re_change_name (stem ++ u "-header-tei-xml")%list HEADER_NAME_PATTERN <> Ok (stem ++ u "-header-tei-xml")%list.
Proof. exists (u "a"). vm_compute. discriminate. Qed.

Print Assumptions C105_no_space.
Print Assumptions C105_words.
Print Assumptions C105_digits.
Print Assumptions C105_header.
Print Assumptions C105_ends.
Print Assumptions C105_starts.
Print Assumptions C105_dot.
Print Assumptions C105_placeholders.
Print Assumptions C105_urls.
Print Assumptions C105_namespace.
Print Assumptions C105_namespaces.
Print Assumptions C105_namespaces_refuted.
Print Assumptions C105_tag.
Print Assumptions C105_name.
Print Assumptions C105_other_name.
Print Assumptions C105_name_dots_refuted.
