(** C102: the functions of ModelJatsText.v are what the regular expressions of the code match *)
From Verif Require Import Base ModelDownload ModelJoined ModelJatsText ModelJats ModelRegex ModelPatterns PropRegex PropRegexRun PropRegexParse PropJatsText.
From Verif Require PropJats PropJatsExact.
From Coq Require Permutation.
Open Scope nat_scope.

Definition place_at (pos : nat) (prev : option N) (s : str) (g : groups) : place := mkPlace pos prev s g.
Lemma skipn_add {A} : forall a b (s : list A), skipn b (skipn a s) = skipn (a + b) s.
Proof. induction a as [|a IH]; intros b s; [reflexivity|]. destruct s as [|c s]; cbn; [now rewrite skipn_nil|]. apply IH. Qed.
Lemma adv_adv x a b : a + b <= length (pl_rest x) -> adv (adv x a) b = adv x (a + b).
Proof.
  intros H. unfold adv. cbn [pl_rest moved]. rewrite moved_moved. cbn [app].
  assert (E1 : firstn a (pl_rest x) ++ firstn b (skipn a (pl_rest x)) = firstn (a + b) (pl_rest x)).
  { generalize (pl_rest x) as s. clear. induction a as [|a IH]; intros s; [reflexivity|]. destruct s as [|c s]; cbn; [now rewrite firstn_nil|]. now rewrite IH. }
  assert (E2 : skipn b (skipn a (pl_rest x)) = skipn (a + b) (pl_rest x)).
  { generalize (pl_rest x) as s. clear. induction a as [|a IH]; intros s; [reflexivity|]. destruct s as [|c s]; cbn; [now rewrite skipn_nil|]. apply IH. }
  now rewrite E1, E2.
Qed.
Lemma adv_rest x n : pl_rest (adv x n) = skipn n (pl_rest x).
Proof. reflexivity. Qed.
Lemma adv_pos x n : n <= length (pl_rest x) -> pl_pos (adv x n) = pl_pos x + n.
Proof. intros H. unfold adv. cbn. rewrite firstn_length. lia. Qed.
Lemma adv_groups x n : pl_groups (adv x n) = pl_groups x.
Proof. reflexivity. Qed.

Section Doi.
Variables sp wd dg : N -> bool.
Variable fold : N -> N.
Hypothesis Hc : classes_ok sp wd dg.
Notation bt := (bt sp wd dg fold false).
Notation char_ok := (char_ok sp wd dg fold false).

Lemma lit_ok a c : char_ok false [ILit a] c = N.eqb c a.
Proof. unfold ModelRegex.char_ok. cbn. destruct (N.eqb c a); reflexivity. Qed.
Lemma any_ok c : char_ok true [ILit 10%N] c = negb (N.eqb c 10).
Proof. unfold ModelRegex.char_ok. cbn. destruct (N.eqb c 10); reflexivity. Qed.
Lemma digit_ok c : char_ok false [IKind KDigit false] c = dg c.
Proof. unfold ModelRegex.char_ok. cbn. destruct (dg c); reflexivity. Qed.
Lemma space_ok c : char_ok false [IKind KSpace false] c = sp c.
Proof. unfold ModelRegex.char_ok. cbn. destruct (sp c); reflexivity. Qed.

Lemma bt_lit a x k : bt (RChar false [ILit a]) x k =
  match pl_rest x with c :: _ => if N.eqb c a then k (adv x 1) else None | [] => None end.
Proof.
  cbn [ModelRegex.bt]. destruct (pl_rest x) as [|c s] eqn:E; [reflexivity|]. rewrite lit_ok. destruct (N.eqb c a); [|reflexivity].
  f_equal. rewrite (adv_S x c s 0 E). now rewrite adv_0.
Qed.

(** what follows the digits of a DOI up to the slash *)
Definition number_rest (s : str) : option nat :=
  match s with
  | x :: s' => if N.eqb x 46 then option_map S (doi_number dg 1 0 s') else if N.eqb x 47 then Some 1 else None
  | [] => None
  end.
Lemma dot_digit : dg 46 = false.
Proof. destruct Hc as [_ H _ _]. apply H. cbn. auto. Qed.
Lemma slash_digit : dg 47 = false.
Proof. destruct Hc as [_ H _ _]. apply H. cbn. auto. Qed.
Lemma doi_number_run : forall s need have,
  doi_number dg need have s = if need <=? have + run dg s then option_map (plus (run dg s)) (number_rest (skipn (run dg s) s)) else None.
Proof.
  induction s as [|c s IH]; intros need have; cbn [doi_number run].
  - now destruct (need <=? have + 0).
  - destruct (dg c) eqn:E.
    + rewrite IH. cbn [skipn]. replace (S have + run dg s) with (have + S (run dg s)) by lia. destruct (need <=? have + S (run dg s)); [|reflexivity].
      now destruct (number_rest (skipn (run dg s) s)).
    + cbn [skipn number_rest]. rewrite Nat.add_0_r. destruct (need <=? have); [|reflexivity].
      destruct (N.eqb c 46); [now destruct (doi_number dg 1 0 s)|]. now destruct (N.eqb c 47).
Qed.
Lemma number_rest_le s n : number_rest s = Some n -> n <= length s.
Proof.
  assert (K : forall s need have n, doi_number dg need have s = Some n -> n <= length s).
  { clear. induction s as [|c s IH]; intros need have n; cbn; [discriminate|]. destruct (dg c).
    - destruct (doi_number dg need (S have) s) eqn:E; [|discriminate]. intros [= <-]. apply IH in E. lia.
    - destruct (need <=? have); [|discriminate]. destruct (N.eqb c 46); [|destruct (N.eqb c 47); [intros [= <-]; lia|discriminate]].
      destruct (doi_number dg 1 0 s) eqn:E; [|discriminate]. intros [= <-]. apply IH in E. lia. }
  destruct s as [|c s]; cbn; [discriminate|]. destruct (N.eqb c 46); [|destruct (N.eqb c 47); [intros [= <-]; lia|discriminate]].
  destruct (doi_number dg 1 0 s) eqn:E; [|discriminate]. intros [= <-]. apply K in E. lia.
Qed.
Definition PART : re := RSeq (RChar false [ILit 46%N]) (RSeq (RRep true 1 None (RChar false [IKind KDigit false])) REmpty).
Lemma bt_part x c s k : pl_rest x = c :: s -> (forall n, n < run dg s -> k (adv x (1 + n)) = None) ->
  bt PART x k = if N.eqb c 46 && (1 <=? run dg s) then k (adv x (1 + run dg s)) else None.
Proof.
  intros E Hk. unfold PART. change (bt (RSeq ?a ?b) ?x ?k) with (bt a x (fun y => bt b y k)). rewrite bt_lit, E. destruct (N.eqb c 46); [|reflexivity].
  change (bt (RSeq ?a REmpty) ?x ?k) with (bt a x k). assert (Hrun : run (char_ok false [IKind KDigit false]) s = run dg s) by (apply run_ext, digit_ok).
  assert (Er : pl_rest (adv x 1) = s) by now rewrite adv_rest, E. pose proof (run_le dg s).
  rewrite bt_run_whole; rewrite ?Er, ?Hrun; [|exact I|].
  - rewrite andb_true_r. cbn [andb]. destruct (1 <=? run dg s); [|reflexivity]. rewrite adv_adv; [reflexivity|rewrite E; cbn; lia].
  - intros n Hn. rewrite adv_adv; [now apply Hk|rewrite E; cbn; lia].
Qed.
Lemma bt_parts k : forall fuel x, length (pl_rest x) <= fuel ->
  more true (bt PART) fuel None x (fun y => match pl_rest y with c :: _ => if N.eqb c 47 then k (adv y 1) else None | [] => None end) =
  match number_rest (pl_rest x) with Some n => k (adv x n) | None => None end.
Proof.
  set (kk := fun y : place => _).
  induction fuel as [|f IH]; intros x Hl.
  - assert (Hr : pl_rest x = []) by (destruct (pl_rest x); [reflexivity|cbn in Hl; lia]). cbn. unfold kk. now rewrite Hr.
  - cbn [more option_map]. destruct (pl_rest x) as [|c s] eqn:Er.
    + unfold PART. change (bt (RSeq ?a ?b) ?x ?k) with (bt a x (fun y => bt b y k)). rewrite bt_lit. unfold kk. now rewrite Er.
    + cbn [length] in Hl. pose proof (run_le dg s). rewrite (bt_part x c s); [|exact Er|].
      * rewrite (proj2 (Nat.eqb_neq _ _)) by (rewrite adv_pos; [lia|rewrite Er; cbn; lia]).
        rewrite IH by (rewrite adv_rest, skipn_length, Er; cbn; lia). rewrite adv_rest, Er. cbn [plus skipn number_rest]. unfold kk. rewrite Er.
        destruct (N.eqb c 46) eqn:E46.
        -- apply N.eqb_eq in E46. subst c. cbn [andb]. change (N.eqb 46 47) with false. cbv iota. rewrite doi_number_run. cbn [plus].
           destruct (1 <=? run dg s); [|reflexivity]. destruct (number_rest (skipn (run dg s) s)) as [n|] eqn:En; cbn; [|reflexivity].
           apply number_rest_le in En. rewrite skipn_length in En. change (S (run dg s)) with (1 + run dg s). rewrite adv_adv; [|rewrite Er; cbn; lia].
           cbn [plus]. now destruct (k _).
        -- cbn [andb]. now destruct (N.eqb c 47).
      * intros n Hn. rewrite (proj2 (Nat.eqb_neq _ _)) by (rewrite adv_pos; [lia|rewrite Er; cbn; lia]).
        rewrite IH by (rewrite adv_rest, skipn_length, Er; cbn; lia). rewrite adv_rest, Er. cbn [plus skipn].
        assert (Hd : exists d r, skipn n s = d :: r /\ dg d = true).
        { clear - Hn. revert n Hn. induction s as [|d s IH]; cbn; [lia|]. destruct (dg d) eqn:E; [|lia]. intros [|n] Hn; [exists d, s; auto|]. apply IH. lia. }
        destruct Hd as (d & r & -> & Hd). cbn [number_rest].
        assert (E46 : N.eqb d 46 = false) by (apply N.eqb_neq; intros ->; rewrite dot_digit in Hd; discriminate).
        assert (E47 : N.eqb d 47 = false) by (apply N.eqb_neq; intros ->; rewrite slash_digit in Hd; discriminate).
        now rewrite E46, E47.
Qed.

Lemma line_run s : line_length s = run (char_ok true [ILit 10%N]) s.
Proof. induction s as [|c s IH]; cbn [line_length run]; [reflexivity|]. rewrite any_ok, IH. unfold NEWLINE. now destruct (N.eqb c 10). Qed.

(** DOI_PATTERN without the boundary, up to the end of the group *)
Definition DOI_RE : re :=
  RSeq (RLit 49%N) (RSeq (RLit 48%N) (RSeq (RLit 46%N) (RSeq (RRep true 4 None (RKind KDigit false)) (RSeq (RRep true 0 None PART)
    (RSeq (RLit 47%N) (RSeq (RRep true 1 None RAny) REmpty)))))).
Lemma doi_compiled : compiled DOI_PATTERN = mkPattern false 1 (RSeq (RBound false) (RSeq (RGroup 1 DOI_RE) REmpty)).
Proof. vm_compute. reflexivity. Qed.
Lemma skip_run_digit n s : n < run dg s -> exists d r, skipn n s = d :: r /\ dg d = true.
Proof.
  revert n. induction s as [|d s IH]; cbn; [lia|]. destruct (dg d) eqn:E; [|lia]. intros [|n] Hn; [exists d, s; auto|]. apply IH. lia.
Qed.
(** the digits, the parts, the slash and the line *)
Lemma bt_number x k : (forall y, k y <> None) ->
  bt (RSeq (RRep true 4 None (RKind KDigit false)) (RSeq (RRep true 0 None PART) (RSeq (RLit 47%N) (RSeq (RRep true 1 None RAny) REmpty)))) x k =
  match doi_number dg 4 0 (pl_rest x) with
  | Some n => match line_length (skipn n (pl_rest x)) with 0 => None | m => k (adv x (n + m)) end
  | None => None
  end.
Proof.
  intros Hk. change (bt (RSeq ?a ?b) x k) with (bt a x (fun y => bt b y k)).
  assert (E : forall y, bt (RSeq (RRep true 0 None PART) (RSeq (RLit 47%N) (RSeq (RRep true 1 None RAny) REmpty))) y k =
                        match number_rest (pl_rest y) with Some n => match line_length (skipn n (pl_rest y)) with 0 => None | m => k (adv y (n + m)) end | None => None end).
  { intros y. transitivity (more true (bt PART) (length (pl_rest y)) None y (fun z => match pl_rest z with c :: _ => if N.eqb c 47 then bt (RRep true 1 None RAny) (adv z 1) k else None | [] => None end)).
    - change (bt (RSeq (RRep true 0 None PART) ?b) y k) with (more true (bt PART) (length (pl_rest y)) None y (fun z => bt b z k)).
      rewrite !(more_ways true (bt PART) (ways sp wd dg fold false PART)) by (intros; apply bt_ways). apply first_some_ext. intros z.
      change (bt (RSeq (RLit 47%N) ?b) z k) with (bt (RChar false [ILit 47%N]) z (fun z' => bt b z' k)). now rewrite bt_lit.
    - rewrite (bt_parts (fun z => bt (RRep true 1 None RAny) z k)) by lia. destruct (number_rest (pl_rest y)) as [n|] eqn:En; [|reflexivity]. apply number_rest_le in En.
      rewrite line_run. pose proof (run_le (char_ok true [ILit 10%N]) (skipn n (pl_rest y))) as L. rewrite skipn_length in L.
      destruct (run (char_ok true [ILit 10%N]) (skipn n (pl_rest y))) as [|m] eqn:Em.
      + apply bt_run_short; [exact I|]. rewrite adv_rest, Em. lia.
      + unfold RAny. rewrite bt_run_greedy; rewrite adv_rest, Em; [|lia|apply Hk]. rewrite adv_adv by lia. reflexivity. }
  rewrite !bt_ways. rewrite (first_some_ext _ _ _ E), <- bt_ways.
  assert (Hrun : run (char_ok false [IKind KDigit false]) (pl_rest x) = run dg (pl_rest x)) by (apply run_ext, digit_ok). pose proof (run_le dg (pl_rest x)) as Hle.
  unfold RKind. rewrite bt_run_whole; [|exact I|].
  - rewrite Hrun, andb_true_r, doi_number_run. cbn [plus]. destruct (4 <=? run dg (pl_rest x)); [|reflexivity]. rewrite adv_rest.
    destruct (number_rest (skipn (run dg (pl_rest x)) (pl_rest x))) as [n|] eqn:En; cbn; [|reflexivity].
    assert (Esk : skipn n (skipn (run dg (pl_rest x)) (pl_rest x)) = skipn (run dg (pl_rest x) + n) (pl_rest x)).
    { apply skipn_add. }
    rewrite Esk. destruct (line_length _) as [|m] eqn:Em; [reflexivity|]. f_equal. rewrite adv_adv; [f_equal; lia|].
    apply number_rest_le in En. rewrite skipn_length in En. pose proof (line_le (skipn (run dg (pl_rest x) + n) (pl_rest x))) as L. rewrite Em, skipn_length in L. lia.
  - intros n Hn. rewrite Hrun in Hn. rewrite adv_rest. destruct (skip_run_digit n _ Hn) as (d & r & -> & Hd). cbn [number_rest].
    assert (E46 : N.eqb d 46 = false) by (apply N.eqb_neq; intros ->; rewrite dot_digit in Hd; discriminate).
    assert (E47 : N.eqb d 47 = false) by (apply N.eqb_neq; intros ->; rewrite slash_digit in Hd; discriminate).
    now rewrite E46, E47.
Qed.
Lemma bt_doi x k : (forall y, k y <> None) ->
  bt DOI_RE x k = match doi_at dg (pl_rest x) with Some n => k (adv x n) | None => None end.
Proof.
  intros Hk. unfold DOI_RE. change (bt (RSeq ?a ?b) x k) with (bt a x (fun y => bt b y k)). unfold RLit at 1. rewrite bt_lit. unfold doi_at.
  change (u "10."%string) with [49; 48; 46]%N. destruct (pl_rest x) as [|c1 s1] eqn:E1; [reflexivity|]. cbn [starts_with]. rewrite (N.eqb_sym 49 c1).
  destruct (N.eqb c1 49); [|reflexivity]. cbn [andb].
  change (bt (RSeq ?a ?b) (adv x 1) k) with (bt a (adv x 1) (fun y => bt b y k)). unfold RLit at 1. rewrite bt_lit. rewrite adv_rest, E1. cbn [skipn].
  destruct s1 as [|c2 s2]; [reflexivity|]. rewrite (N.eqb_sym 48 c2). destruct (N.eqb c2 48); [|reflexivity]. cbn [andb].
  rewrite adv_adv by (rewrite E1; cbn; lia).
  change (bt (RSeq ?a ?b) (adv x (1 + 1)) k) with (bt a (adv x (1 + 1)) (fun y => bt b y k)). unfold RLit at 1. rewrite bt_lit. rewrite adv_rest, E1. cbn [plus skipn].
  destruct s2 as [|c3 s3]; [reflexivity|]. rewrite (N.eqb_sym 46 c3). destruct (N.eqb c3 46); [|reflexivity]. cbn [andb].
  rewrite adv_adv by (rewrite E1; cbn; lia). rewrite bt_number by exact Hk. rewrite adv_rest, E1. cbn [plus skipn].
  destruct (doi_number dg 4 0 s3) as [n|] eqn:En; [|reflexivity]. destruct (line_length (skipn n s3)) as [|m] eqn:Em; [reflexivity|].
  assert (L : n <= length s3).
  { rewrite doi_number_run in En. destruct (4 <=? _); [|discriminate]. destruct (number_rest _) as [n'|] eqn:En'; [|discriminate]. cbn in En. injection En as <-.
    apply number_rest_le in En'. rewrite skipn_length in En'. pose proof (run_le dg s3). lia. }
  pose proof (line_le (skipn n s3)) as L2. rewrite Em, skipn_length in L2. rewrite adv_adv by (rewrite E1; cbn; lia). f_equal. 
Qed.
Lemma doi_at_le s n : doi_at dg s = Some n -> n <= length s.
Proof. intros E. apply doi_at_sound in E as (h & x & b & _ & _ & _ & L). lia. Qed.
Lemma doi_match_here prev pos s :
  match_here sp wd dg fold (compiled DOI_PATTERN) false pos prev s =
  match (if ModelJatsText.boundary wd prev s then doi_at dg s else None) with
  | Some n => Some (mkFound pos (pos + n) [(1, (pos, pos + n))])
  | None => None
  end.
Proof.
  rewrite doi_compiled. unfold match_here. cbn [pt_ic pt_re]. set (x := mkPlace pos prev s []).
  change (bt (RSeq (RBound false) (RSeq (RGroup 1 DOI_RE) REmpty)) x ?k) with
    (if xorb false (at_boundary wd x) then bt DOI_RE x (fun y => k (mkPlace (pl_pos y) (pl_prev y) (pl_rest y) ((1, (pl_pos x, pl_pos y)) :: pl_groups y))) else None).
  replace (xorb false (at_boundary wd x)) with (ModelJatsText.boundary wd prev s).
  2: { rewrite xorb_false_l. unfold at_boundary, ModelJatsText.boundary. cbn. destruct s; reflexivity. }
  destruct (ModelJatsText.boundary wd prev s); [|reflexivity]. rewrite bt_doi by discriminate. cbn [pl_rest x].
  destruct (doi_at dg s) as [n|] eqn:E; [|reflexivity]. cbn. rewrite firstn_length. apply doi_at_le in E. now rewrite Nat.min_l by exact E.
Qed.
Lemma doi_search_from : forall s prev pos,
  search_from sp wd dg fold (compiled DOI_PATTERN) false pos prev s =
  match doi_search wd dg prev pos s with Some (i, j) => Some (mkFound i j [(1, (i, j))]) | None => None end.
Proof.
  induction s as [|c s IH]; intros prev pos; cbn [search_from doi_search]; rewrite doi_match_here.
  - now destruct (if ModelJatsText.boundary wd prev [] then doi_at dg [] else None).
  - destruct (if ModelJatsText.boundary wd prev (c :: s) then doi_at dg (c :: s) else None); [reflexivity|apply IH].
Qed.

(** C102: the search for a DOI *)
Theorem C102_doi text : find_re sp wd dg fold (compiled DOI_PATTERN) text = find_doi_pattern wd dg text.
Proof.
  unfold find_re, re_search, find_doi_pattern. rewrite doi_search_from. destruct (doi_search wd dg None 0 text) as [[i j]|]; reflexivity.
Qed.
End Doi.

(* ------------------------------------------------------------------ *)
(** ** Titles *)
Section Title.
Variables sp wd dg : N -> bool.
Variable fold : N -> N.
Hypothesis sp_comma : sp 44%N = false.
Hypothesis sp_P : sp 80%N = false.
Hypothesis sp_newline : sp 10%N = true.
Notation reads := (reads sp wd dg fold false).
Notation bt := (bt sp wd dg fold false).

Definition PMC_END : re :=
  RSeq (RLit 59%N) (RSeq (RRep true 0 None (RKind KSpace false)) (RSeq (RLit 80%N) (RSeq (RLit 77%N) (RSeq (RLit 67%N) (RSeq (RRep true 1 None (RKind KDigit false)) REmpty))))).
Definition COMMA_END : re := RSeq (RRep true 0 None (RKind KSpace false)) (RSeq (RLit 44%N) (RSeq (RRep true 0 None (RKind KSpace false)) REmpty)).
Definition TITLE_END : re := RSeq (RRep true 0 (Some 1) (RGroup 2 (RAlt PMC_END COMMA_END))) (RSeq REnd REmpty).
Lemma title_compiled : compiled ARTICLE_TITLE_PATTERN =
  mkPattern false 2 (RSeq RStart (RSeq (RGroup 1 (RSeq (RRep false 0 None RAny) REmpty)) TITLE_END)).
Proof. vm_compute. reflexivity. Qed.

Lemma all_in k w : Forall (in_set sp wd dg fold false false [IKind k false]) w <-> PropJatsExact.all (kind_ok sp wd dg k) w.
Proof.
  rewrite Forall_forall. unfold PropJatsExact.all. split; intros H x Hx; specialize (H x Hx); [apply in_kind in H|apply in_kind]; now destruct k.
Qed.
Lemma title_end_reads p i s g0 :
  (exists w q g, s = w ++ q /\ reads TITLE_END p i w q g /\ group_in 1 (g ++ g0) = group_in 1 g0) <-> PropJatsExact.title_tail sp dg s.
Proof.
  split.
  - intros (w & q & g & -> & R & _). unfold TITLE_END, PMC_END, COMMA_END in R. read_cases.
    + cbn. left. exact E.
    + right. left. exists w0, w4, q. split; [rewrite ?app_nil_r; cbn; rewrite <- ?app_assoc; reflexivity|]. split; [apply (all_in KSpace); assumption|].
      split; [intros ->; cbn in *; lia|]. split; [apply (all_in KDigit); assumption|exact E].
    + cbn. right. right. rewrite ?app_nil_r, <- ?app_assoc. cbn. exists w, (w1 ++ q). split; [reflexivity|]. split; [apply (all_in KSpace); assumption|].
      assert (F1 : PropJatsExact.all sp w1) by (apply (all_in KSpace); assumption). intros x Hx. apply in_app_or in Hx as [Hx|Hx]; [now apply F1|]. cbn in E. destruct E as [-> | ->]; [destruct Hx|]. destruct Hx as [<-|[]]. exact sp_newline.
  - intros [E|[(w & ds & e & -> & Hw & Hn & Hd & He)|(w & w' & -> & Hw & Hw')]].
    + exists [], s, []. split; [reflexivity|]. split; [|reflexivity]. unfold TITLE_END. eapply (mk_seq _ _ _ _ _ _ _ _ _ [] [] _ _ [] []); [reflexivity|reflexivity|constructor|].
      eapply (mk_seq _ _ _ _ _ _ _ _ _ [] [] _ _ [] []); [reflexivity|reflexivity|now constructor|constructor].
    + exists (59%N :: w ++ u "PMC"%string ++ ds), e, [(2, (i, i + length (59%N :: w ++ u "PMC"%string ++ ds)))].
      split; [cbn; now rewrite <- app_assoc|]. split; [|reflexivity]. unfold TITLE_END.
      eapply (mk_seq _ _ _ _ _ _ _ _ _ (59%N :: w ++ u "PMC"%string ++ ds) [] _ _ _ []); [now rewrite app_nil_r|reflexivity| |].
      2: { eapply (mk_seq _ _ _ _ _ _ _ _ _ [] [] _ _ [] []); [reflexivity|reflexivity|now constructor|constructor]. }
      apply mk_opt; [discriminate|]. constructor. apply rd_left. unfold PMC_END.
      eapply (mk_seq _ _ _ _ _ _ _ _ _ [59%N] (w ++ u "PMC"%string ++ ds) _ _ [] []); [reflexivity|reflexivity|apply mk_lit|].
      eapply (mk_seq _ _ _ _ _ _ _ _ _ w (u "PMC"%string ++ ds) _ _ [] []); [reflexivity|reflexivity|apply mk_run; [exact I|now apply all_in|lia|exact I]|].
      eapply (mk_seq _ _ _ _ _ _ _ _ _ [80%N] (77%N :: 67%N :: ds) _ _ [] []); [reflexivity|reflexivity|apply mk_lit|].
      eapply (mk_seq _ _ _ _ _ _ _ _ _ [77%N] (67%N :: ds) _ _ [] []); [reflexivity|reflexivity|apply mk_lit|].
      eapply (mk_seq _ _ _ _ _ _ _ _ _ [67%N] ds _ _ [] []); [reflexivity|reflexivity|apply mk_lit|].
      eapply (mk_seq _ _ _ _ _ _ _ _ _ ds [] _ _ [] []); [now rewrite app_nil_r|reflexivity|apply mk_run; [exact I|now apply all_in| |exact I]|constructor].
      destruct ds; [contradiction|cbn; lia].
    + exists (w ++ 44%N :: w'), [], [(2, (i, i + length (w ++ 44%N :: w')))].
      split; [now rewrite app_nil_r|]. split; [|reflexivity]. unfold TITLE_END.
      eapply (mk_seq _ _ _ _ _ _ _ _ _ (w ++ 44%N :: w') [] _ _ _ []); [now rewrite app_nil_r|reflexivity| |].
      2: { eapply (mk_seq _ _ _ _ _ _ _ _ _ [] [] _ _ [] []); [reflexivity|reflexivity|constructor; now left|constructor]. }
      apply mk_opt; [destruct w; discriminate|]. constructor. apply rd_right. unfold COMMA_END.
      eapply (mk_seq _ _ _ _ _ _ _ _ _ w (44%N :: w') _ _ [] []); [reflexivity|reflexivity|apply mk_run; [exact I|now apply all_in|lia|exact I]|].
      eapply (mk_seq _ _ _ _ _ _ _ _ _ [44%N] w' _ _ [] []); [reflexivity|reflexivity|apply mk_lit|].
      eapply (mk_seq _ _ _ _ _ _ _ _ _ w' [] _ _ [] []); [now rewrite app_nil_r|reflexivity|apply mk_run; [exact I|now apply all_in|lia|exact I]|constructor].
Qed.
Lemma title_groups p i w q g g0 : reads TITLE_END p i w q g -> group_in 1 (g ++ g0) = group_in 1 g0.
Proof. intros R. unfold TITLE_END, PMC_END, COMMA_END in R. read_cases; reflexivity. Qed.

Lemma title_match s :
  match match_here sp wd dg fold (compiled ARTICLE_TITLE_PATTERN) false 0 None s with
  | Some m => group 1 m = option_map (fun n => (0, n)) (title_end sp dg s) /\ title_end sp dg s <> None
  | None => title_end sp dg s = None
  end.
Proof.
  rewrite title_compiled. unfold match_here. cbn [pt_ic pt_re]. set (x := mkPlace 0 None s []).
  set (k := fun y : place => if false && (pl_pos y =? 0) then None else Some y).
  change (bt (RSeq RStart (RSeq (RGroup 1 (RSeq (RRep false 0 None RAny) REmpty)) TITLE_END)) x k) with
    (bt (RRep false 0 None RAny) x (fun y => bt TITLE_END (mkPlace (pl_pos y) (pl_prev y) (pl_rest y) ((1, (0, pl_pos y)) :: pl_groups y)) k)).
  unfold RAny. rewrite bt_ways, ways_run by exact I. rewrite first_some_map. unfold counts. cbn [capped pl_rest x]. rewrite Nat.sub_0_r.
  set (kk := fun n : nat => _).
  assert (Hkk : forall n, n <= length s ->
            match kk n with Some z => group_in 1 (pl_groups z) = Some (0, n) /\ title_rest sp dg (skipn n s) = true | None => title_rest sp dg (skipn n s) = false end).
  { intros n Hn. unfold kk. rewrite adv_rest, adv_groups. rewrite adv_pos by exact Hn. cbn [pl_rest x pl_pos plus pl_groups].
    set (y := mkPlace n _ _ _). rewrite bt_ways. destruct (first_some k _) as [z|] eqn:E.
    - apply first_some_in in E as (z' & Hz & Ez). cbn in Ez. injection Ez as ->. apply ways_reads in Hz as (w & q & g & E1 & R & ->).
      cbn [moved pl_groups y]. rewrite (title_groups _ _ _ _ _ _ R). split; [reflexivity|].
      apply PropJatsExact.title_rest_spec; [exact sp_comma|exact sp_P|]. apply (title_end_reads (pl_prev y) (pl_pos y) _ []). exists w, q, g. split; [exact E1|]. split; [exact R|]. now apply (title_groups _ _ _ _ _ _ R).
    - rewrite first_some_none in E. apply not_true_iff_false. intros T. apply PropJatsExact.title_rest_spec in T; [|exact sp_comma|exact sp_P].
      apply (title_end_reads (pl_prev y) n _ []) in T as (w & q & g & E1 & R & _). specialize (E (moved y w q g)). discriminate E. apply ways_reads. exists w, q, g. auto. }
  clearbody kk. assert (G : forall t a, s = a ++ t -> 
    match first_some kk (seq (length a) (S (run (char_ok sp wd dg fold false true [ILit 10%N]) t))) with
    | Some z => option_map (fun n => (0, length a + n)) (title_end sp dg t) = group_in 1 (pl_groups z) /\ title_end sp dg t <> None
    | None => title_end sp dg t = None
    end).
  { induction t as [|c t IH]; intros a Ea.
    - cbn [run seq first_some title_end]. specialize (Hkk (length a)). rewrite Ea in Hkk. rewrite app_nil_r, skipn_all in Hkk. specialize (Hkk (le_n _)).
      destruct (kk (length a)); [|now rewrite Hkk]. destruct Hkk as [H1 H2]. rewrite H2. cbn. rewrite Nat.add_0_r. split; [now rewrite H1|discriminate].
    - cbn [run]. rewrite any_ok. change (seq (length a) (S ?n)) with (length a :: seq (S (length a)) n). cbn [first_some title_end].
      specialize (Hkk (length a)). rewrite Ea in Hkk. rewrite skipn_app, skipn_all, Nat.sub_diag in Hkk. cbn [skipn app] in Hkk.
      specialize (Hkk ltac:(rewrite app_length; lia)). destruct (kk (length a)) as [z|].
      + destruct Hkk as [H1 H2]. rewrite H2. cbn. rewrite Nat.add_0_r. split; [now rewrite H1|discriminate].
      + rewrite Hkk. unfold NEWLINE. destruct (N.eqb c 10) eqn:Ec; [reflexivity|]. cbn [negb].
        specialize (IH (a ++ [c])). rewrite app_length in IH. cbn [length] in IH. rewrite Nat.add_1_r in IH.
        specialize (IH ltac:(rewrite Ea, <- app_assoc; reflexivity)). destruct (first_some kk _) as [z|].
        * destruct IH as [H1 H2]. destruct (title_end sp dg t) as [n|]; [|contradiction]. cbn in *. split; [|discriminate]. rewrite <- H1. now rewrite Nat.add_succ_r.
        * now rewrite IH. }
  specialize (G s [] eq_refl). cbn [length] in G. destruct (first_some kk _) as [z|]; [|exact G]. unfold group. cbn. destruct G as [G1 G2]. split; [now rewrite <- G1|exact G2].
Qed.
Lemma title_nowhere : forall s prev pos, search_from sp wd dg fold (compiled ARTICLE_TITLE_PATTERN) false (S pos) prev s = None.
Proof.
  rewrite title_compiled. induction s as [|c s IH]; intros prev pos; cbn [search_from]; [reflexivity|]. unfold match_here at 1. cbn [ModelRegex.bt pt_re pt_ic pl_pos Nat.eqb]. apply IH.
Qed.
(** C102: the place of a title *)
Theorem C102_title text :
  (match find_re sp wd dg fold (compiled ARTICLE_TITLE_PATTERN) text with Some (_, n) => n | None => length text end =
   match title_end sp dg text with Some n => n | None => length text end) /\
  (forall i j, find_re sp wd dg fold (compiled ARTICLE_TITLE_PATTERN) text = Some (i, j) -> i = 0).
Proof.
  unfold find_re, re_search. pose proof (title_match text) as H. destruct text as [|c s]; cbn [search_from].
  - destruct (match_here _ _ _ _ _ _ _ _ _) as [m|].
    + destruct H as [-> H]. destruct (title_end sp dg []); [|contradiction]. cbn. split; [reflexivity|]. now intros i j [= <- _].
    + rewrite H. split; [reflexivity|discriminate].
  - destruct (match_here _ _ _ _ _ _ _ _ _) as [m|].
    + destruct H as [-> H]. destruct (title_end sp dg (c :: s)); [|contradiction]. cbn. split; [reflexivity|]. now intros i j [= <- _].
    + rewrite H, title_nowhere. split; [reflexivity|discriminate].
Qed.
End Title.

(* ------------------------------------------------------------------ *)
(** ** Stop words *)
Definition BEFORE_TOKEN : re := RAlt (RSeq (RKind KSpace false) REmpty) (RSeq (RLit 40%N) REmpty).
Definition token_re (m : nat) (t : str) : re := RSeq BEFORE_TOKEN (RSeq (RGroup m (lits t REmpty)) (RSeq (RBound false) REmpty)).
Fixpoint tokens_re (m : nat) (t : str) (ts : list str) : re :=
  match ts with [] => token_re m t | t' :: ts' => RAlt (token_re m t) (tokens_re (S m) t' ts') end.
Definition token_source (t : str) : str := u "(?:\s|\()(" ++ re_escape t ++ u ")\b".

Lemma token_parsed t n f rest : hd_error rest = Some 124%N \/ hd_error rest = Some 41%N ->
  parse_seq (length t + (10 + f)) n (token_source t ++ rest) = Parsed (token_re (S n) t, S n, rest).
Proof.
  intros Hr. unfold token_source.
  change (u "(?:\s|\()(" ++ re_escape t ++ u ")\b") with (40%N :: 63%N :: 58%N :: 92%N :: 115%N :: 124%N :: 92%N :: 40%N :: 41%N :: 40%N :: re_escape t ++ [41%N; 92%N; 98%N]).
  cbn [app]. rewrite <- app_assoc. cbn [app].
  replace (length t + (10 + f)) with (S (S (S (S (S (S (S (length t + S (S (S f)))))))))) by lia.
  assert (Hb : parse_bounds rest = None) by (destruct rest as [|c rest]; [reflexivity|]; destruct Hr as [[= ->]|[= ->]]; reflexivity).
  eapply seq_step; [reflexivity|..].
  - apply atom_shy. eapply alt_more.
    + eapply seq_step; [reflexivity|reflexivity|apply repeat_none; reflexivity|]. apply seq_end. cbn. auto.
    + eapply alt_one; [|cbn; discriminate]. eapply seq_step; [reflexivity|reflexivity|apply repeat_none; reflexivity|]. apply seq_end. cbn. auto.
  - apply repeat_none. reflexivity.
  - eapply seq_step; [reflexivity|..].
    + apply atom_group; [apply escape_head; [reflexivity|discriminate|cbn; discriminate]|].
      replace (S (S (S (S (length t + S (S (S f))))))) with (S (length t + S (S (S (S (S (S f))))))) by lia.
      eapply alt_one.
      * rewrite parse_escaped by reflexivity. rewrite seq_end by (cbn; auto). reflexivity.
      * cbn. discriminate.
    + apply repeat_none. reflexivity.
    + eapply seq_step; [reflexivity|reflexivity|apply repeat_none; exact Hb|]. apply seq_end. auto.
Qed.
Fixpoint sizes (ts : list str) : nat := match ts with [] => 0 | t :: ts' => S (length t) + sizes ts' end.
Lemma tokens_parsed : forall (ts : list str) (t : str) n f,
  parse_alt (S (length t + sizes ts + (10 + f))) n (join_str (u "|") (map token_source (t :: ts)) ++ [41%N]) = Parsed (tokens_re (S n) t ts, n + S (length ts), [41%N]).
Proof.
  induction ts as [|t' ts IH]; intros t n f.
  - cbn [map join_str sizes tokens_re length]. rewrite Nat.add_0_r, Nat.add_1_r. apply alt_one; [|cbn; discriminate]. apply token_parsed. now right.
  - change (join_str (u "|") (map token_source (t :: t' :: ts))) with (token_source t ++ [124%N] ++ join_str (u "|") (map token_source (t' :: ts))).
    rewrite <- !app_assoc. cbn [sizes tokens_re length]. eapply alt_more.
    + replace (length t + (S (length t') + sizes ts) + (10 + f)) with (length t + (10 + (S (length t') + sizes ts + f))) by lia.
      apply token_parsed. now left.
    + replace (length t + (S (length t') + sizes ts) + (10 + f)) with (S (length t' + sizes ts + (10 + (length t + f)))) by lia.
      rewrite IH. f_equal. f_equal. f_equal. lia.
Qed.
Lemma source_length t : length t + 12 <= length (token_source t).
Proof. unfold token_source. rewrite !app_length. pose proof (re_escape_length t). change (length (u "(?:\s|\()(")) with 10. change (length (u ")\b")) with 3. lia. Qed.
Lemma sources_length : forall (ts : list str) (t : str), length t + sizes ts + 12 <= length (join_str (u "|") (map token_source (t :: ts))).
Proof.
  induction ts as [|t' ts IH]; intros t.
  - cbn [map join_str sizes]. pose proof (source_length t). lia.
  - change (join_str (u "|") (map token_source (t :: t' :: ts))) with (token_source t ++ [124%N] ++ join_str (u "|") (map token_source (t' :: ts))).
    rewrite !app_length. cbn [sizes length]. specialize (IH t'). pose proof (source_length t). lia.
Qed.
(** the pattern of any stop words compiles *)
Lemma stop_compiled (t : str) (ts : list str) : re_compile (truncate_pattern (t :: ts)) = Parsed (mkPattern true (S (S (length ts))) (RSeq (RGroup 1 (tokens_re 2 t ts)) REmpty)).
Proof.
  pose (body := join_str (u "|") (map token_source (t :: ts)) : list N).
  assert (E : truncate_pattern (t :: ts) = 40%N :: 63%N :: 105%N :: 41%N :: 40%N :: body ++ [41%N]) by reflexivity.
  assert (P : parse_alt (3 * length (40%N :: body ++ [41%N]) + 3) 0 (40%N :: body ++ [41%N]) = Parsed (RSeq (RGroup 1 (tokens_re 2 t ts)) REmpty, S (S (length ts)), [])).
  { pose proof (sources_length ts t) as L. fold body in L. cbn [length]. rewrite app_length. cbn [length].
    set (k := length body) in *.
    replace (3 * S (k + 1) + 3) with (S (S (S (S (length t + sizes ts + (10 + (3 * k - length t - sizes ts - 5))))))) by lia.
    apply alt_one; [|discriminate]. eapply seq_step; [reflexivity|..].
    - apply atom_group; [|apply tokens_parsed]. subst k body. destruct ts; cbn; discriminate.
    - apply repeat_none. reflexivity.
    - reflexivity. }
  rewrite E. clearbody body. clear E. unfold re_compile. change (starts_with (u "(?i)") (40%N :: 63%N :: 105%N :: 41%N :: 40%N :: body ++ [41%N])) with true. cbv iota beta zeta.
  change (skipn 4 (40%N :: 63%N :: 105%N :: 41%N :: 40%N :: body ++ [41%N])) with (40%N :: body ++ [41%N]). rewrite P. reflexivity.
Qed.

Section Stop.
Variables sp wd dg : N -> bool.
Variable fold : N -> N.
Hypothesis fold_bracket : forall c, fold c = fold 40%N -> c = 40%N.
Notation reads := (reads sp wd dg fold true).

(** [w] is white space or a bracket and then the word [t] in any case, and the word ends there *)
Definition stop_word (t w q : str) : Prop :=
  exists x v, w = x :: v /\ (sp x = true \/ x = 40%N) /\ Forall2 (fun c a => fold c = fold a) v t /\ PropRegex.boundary wd (after (Some x) v) q.
Lemma token_reads m t p i w q g : reads (token_re m t) p i w q g -> stop_word t w q.
Proof.
  intros R. unfold token_re, BEFORE_TOKEN in R. read_cases.
  all: match goal with H : PropRegex.reads _ _ _ _ _ (RChar _ _) _ _ _ _ _ |- _ => apply reads_char in H as (x & -> & -> & Hx) end.
  all: match goal with H : PropRegex.reads _ _ _ _ _ (lits _ _) _ _ _ _ _ |- _ => apply reads_lits in H as (w1' & w2' & -> & F & R'); apply reads_empty in R' as [-> _] end.
  all: exists x, w1'; rewrite ?app_nil_r in *; cbn in *; split; [now rewrite ?app_nil_r|].
  - apply in_kind in Hx. auto.
  - apply in_lit in Hx. cbn in Hx. auto.
Qed.
Lemma token_reads' m t p i w q : stop_word t w q -> exists g, reads (token_re m t) p i w q g.
Proof.
  intros (x & v & -> & Hx & F & B). eexists. unfold token_re. eapply (mk_seq _ _ _ _ _ _ _ _ _ [x] v _ _ []); [reflexivity|reflexivity| |].
  - unfold BEFORE_TOKEN. destruct Hx as [Hx| ->]; [apply rd_left|apply rd_right]; (eapply (mk_seq _ _ _ _ _ _ _ _ _ [_] [] _ _ [] []); [reflexivity|reflexivity| |constructor]).
    + constructor. now apply in_kind.
    + apply mk_lit.
  - eapply (mk_seq _ _ _ _ _ _ _ _ _ v [] _ _ _ []); [now rewrite app_nil_r|reflexivity| |].
    + constructor. apply reads_lits. exists v, []. rewrite app_nil_r. split; [reflexivity|]. split; [exact F|constructor].
    + eapply (mk_seq _ _ _ _ _ _ _ _ _ [] [] _ _ [] []); [reflexivity|reflexivity| |constructor]. constructor. exact B.
Qed.
Lemma tokens_reads : forall ts t m p i w q, (exists g, reads (tokens_re m t ts) p i w q g) <-> exists t', In t' (t :: ts) /\ stop_word t' w q.
Proof.
  induction ts as [|t1 ts IH]; intros t m p i w q; cbn [tokens_re].
  - split; [intros (g & R); exists t; split; [now left|]; eapply token_reads; exact R|]. intros (t' & [<-|[]] & H). now apply token_reads'.
  - split.
    + intros (g & R). apply reads_alt in R as [R|R].
      * exists t. split; [now left|]. eapply token_reads; exact R.
      * destruct (proj1 (IH t1 (S m) p i w q) (ex_intro _ g R)) as (t' & Hi & H). exists t'. split; [now right|exact H].
    + intros (t' & [<-|Hi] & H).
      * apply token_reads' with (m := m) (p := p) (i := i) in H as (g & R). exists g. now apply rd_left.
      * destruct (proj2 (IH t1 (S m) p i w q)) as (g & R); [now exists t'|]. exists g. now apply rd_right.
Qed.
Lemma token_rest_spec : forall t prev s, token_rest wd fold t prev s = true <->
  exists v q, s = v ++ q /\ Forall2 (fun c a => fold c = fold a) v t /\ PropRegex.boundary wd (after prev v) q.
Proof.
  induction t as [|a t IH]; intros prev s; cbn [token_rest].
  - pose proof (at_boundary_spec wd (mkPlace 0 prev s [])) as B. cbn in B. unfold at_boundary in B. cbn in B. rewrite B.
    split; [intros H; exists [], s; auto|]. intros (v & q & -> & F & H). now inversion F; subst.
  - destruct s as [|c s].
    + split; [discriminate|]. intros (v & q & E & F & _). inversion F; subst. discriminate.
    + rewrite andb_true_iff, N.eqb_eq, IH. split.
      * intros (E & v & q & -> & F & B). exists (c :: v), q. repeat split; auto.
      * intros (v & q & E & F & B). inversion F as [|x y v' t' E1 F1]; subst. injection E as <- ->. split; [exact E1|]. now exists v', q.
Qed.
Lemma any_token_spec tokens x s : Forall (fun t => t <> []) tokens ->
  any_token_at wd fold tokens s = true <-> exists t v q, In t tokens /\ s = v ++ q /\ Forall2 (fun c a => fold c = fold a) v t /\ PropRegex.boundary wd (after (Some x) v) q.
Proof.
  intros Hn. rewrite Forall_forall in Hn. unfold any_token_at. rewrite existsb_exists. split.
  - intros (t & Ht & H). apply token_rest_spec in H as (v & q & -> & F & B). exists t, v, q. repeat split; auto.
    destruct v as [|c v]; [|exact B]. inversion F; subst. now destruct (Hn [] Ht).
  - intros (t & v & q & Ht & -> & F & B). exists t. split; [exact Ht|]. apply token_rest_spec. exists v, q. repeat split; auto.
    destruct v as [|c v]; [|exact B]. inversion F; subst. now destruct (Hn [] Ht).
Qed.
(** C102: the stop words, whatever they are and in whatever order they are in the pattern *)
Theorem C102_stop tokens doi : tokens <> [] -> Forall (fun t => t <> []) tokens ->
  stop_start sp wd dg fold tokens doi = stop_position sp (any_token_at wd fold tokens) doi.
Proof.
  intros Ht Hn. destruct tokens as [|t ts]; [contradiction|]. set (tokens := t :: ts) in *.
  unfold stop_start, compiled, find_re. subst tokens. rewrite stop_compiled. set (tokens := t :: ts) in *. set (pat := mkPattern true _ _).
  assert (O : forall a w q, (exists g, occurs sp wd dg fold pat a w q g) <-> exists x b, w ++ q = x :: b /\ exists t', In t' tokens /\ stop_word t' w q).
  { intros a w q. unfold occurs. cbn [pat pt_ic pt_re]. split.
    - intros (g & R). read_cases. destruct (proj1 (tokens_reads ts t 2 _ _ _ _) (ex_intro _ _ R)) as (t' & Hi & (x & v & -> & H)).
      cbn. rewrite app_nil_r. exists x, (v ++ q). split; [reflexivity|]. exists t'. split; [exact Hi|]. exists x, v. auto.
    - intros (x & b & _ & H). destruct (proj2 (tokens_reads ts t 2 (after None a) (length a) w q) H) as (g & R). eexists.
      eapply (mk_seq _ _ _ _ _ _ _ _ _ w [] _ _ _ []); [now rewrite app_nil_r|reflexivity| |constructor]. constructor. exact R. }
  pose proof (C101_search sp wd dg fold pat doi) as S1.
  pose proof (PropJatsExact.stop_spec sp (any_token_at wd fold tokens) doi) as S2.
  assert (G : forall a w q g, occurs sp wd dg fold pat a w q g -> option_map fst (group_in 1 g) = Some (length a)).
  { intros a w q g R. unfold occurs in R. cbn [pat pt_ic pt_re] in R. read_cases. reflexivity. }
  assert (A1 : forall a w q g, doi = a ++ w ++ q -> occurs sp wd dg fold pat a w q g -> exists x b, PropJatsExact.stops sp (any_token_at wd fold tokens) doi a x b).
  { intros a w q g -> R. destruct (proj1 (O a w q) (ex_intro _ g R)) as (_ & _ & _ & t' & Hi & (x & v & -> & Hx & F & B)).
    exists x, (v ++ q). split; [reflexivity|]. split; [exact Hx|]. apply (any_token_spec tokens x); [exact Hn|]. exists t', v, q. auto. }
  assert (A2 : forall a x b, PropJatsExact.stops sp (any_token_at wd fold tokens) doi a x b -> exists w q g, doi = a ++ w ++ q /\ occurs sp wd dg fold pat a w q g).
  { intros a x b (-> & Hx & Hb). apply (any_token_spec tokens x) in Hb as (t' & v & q & Hi & -> & F & B); [|exact Hn].
    destruct (proj2 (O a (x :: v) q)) as (g & R); [|now exists (x :: v), q, g]. exists x, (v ++ q). split; [reflexivity|]. exists t'. split; [exact Hi|]. exists x, v. auto. }
  destruct (re_search sp wd dg fold pat doi) as [m|].
  - destruct S1 as (a & w & q & E & R & _ & _ & L). change (group 1 m) with (group_in 1 (fo_groups m)). rewrite (G _ _ _ _ R).
    destruct (A1 _ _ _ _ E R) as (x & b & Hs). destruct (stop_position sp (any_token_at wd fold tokens) doi) as [n|]; [|destruct (S2 _ _ _ Hs)].
    destruct S2 as (a2 & x2 & b2 & Hs2 & <- & L2). destruct (A2 _ _ _ Hs2) as (w' & q' & g' & E' & R'). f_equal. apply Nat.le_antisymm; [eapply L; eauto|eapply L2; eauto].
  - destruct (stop_position sp (any_token_at wd fold tokens) doi) as [n|]; [|reflexivity]. destruct S2 as (a2 & x2 & b2 & Hs2 & _).
    destruct (A2 _ _ _ Hs2) as (w' & q' & g' & E' & R'). destruct (S1 _ _ _ _ E' R').
Qed.
(** C102: the order of the set of the stop words makes no difference *)
Theorem C102_order tokens tokens' doi : Permutation.Permutation tokens tokens' -> tokens <> [] -> Forall (fun t => t <> []) tokens ->
  stop_start sp wd dg fold tokens doi = stop_start sp wd dg fold tokens' doi.
Proof.
  intros P H1 H2. rewrite !C102_stop; [| |rewrite <- P; exact H2|exact H1|exact H2].
  2: { intros ->. apply Permutation.Permutation_sym, Permutation.Permutation_nil in P. contradiction. }
  assert (E : forall s, any_token_at wd fold tokens s = any_token_at wd fold tokens' s).
  { intros s. apply eq_iff_eq_true. unfold any_token_at. rewrite !existsb_exists. split; intros (t & Ht & H); exists t; (split; [|exact H]).
    - eapply Permutation.Permutation_in; eauto.
    - eapply Permutation.Permutation_in; [apply Permutation.Permutation_sym|]; eauto. }
  induction doi as [|x s IH]; [reflexivity|]. cbn [stop_position]. now rewrite E, IH.
Qed.
End Stop.

(* ------------------------------------------------------------------ *)
(** ** All patterns *)
(** C102: the patterns of the code are regular expressions *)
Theorem C102_compile : Forall (fun s => exists p, re_compile s = Parsed p)
  [DOI_PATTERN; PII_VALID_PATTERN; PII_OTHER_PATTERN; PMID_FIX_PATTERN; PMID_PATTERN; PMCID_PATTERN; WOS_PATTERN;
   DOI_URL_PREFIX_PATTERN; ARTICLE_TITLE_PATTERN; truncate_pattern DOI_TRUNCATE_AT_TOKENS; REPEATED_DOI_PATTERN].
Proof. repeat constructor; eexists; vm_compute; reflexivity. Qed.

Definition ascii_fold (c : N) : N := if (65 <=? c)%N && (c <=? 90)%N then (c + 32)%N else c.
Lemma ascii_fold_bracket c : ascii_fold c = ascii_fold 40%N -> c = 40%N.
Proof.
  unfold ascii_fold at 2. cbn. unfold ascii_fold. destruct ((65 <=? c)%N && (c <=? 90)%N) eqn:E; [|auto].
  apply andb_true_iff in E as [E _]. apply N.leb_le in E. intros H. lia.
Qed.
Example C102_doi_example :
  find_re ascii_space ascii_word ascii_digit ascii_fold (compiled DOI_PATTERN) (u "doi: 10.1234/ab.c x") = Some (5, 19).
Proof. vm_compute. reflexivity. Qed.
Example C102_title_example :
  find_re ascii_space ascii_word ascii_digit ascii_fold (compiled ARTICLE_TITLE_PATTERN) (u "A title; PMC12") = Some (0, 7).
Proof. vm_compute. reflexivity. Qed.
Example C102_stop_example :
  DOI_TRUNCATE_AT_TOKENS <> [] /\ Forall (fun t => t <> []) DOI_TRUNCATE_AT_TOKENS /\
  stop_start ascii_space ascii_word ascii_digit ascii_fold DOI_TRUNCATE_AT_TOKENS (u "10.1/a pmidx (pubmed 1") = Some 13.
Proof. split; [discriminate|]. split; [repeat constructor; discriminate|]. vm_compute. reflexivity. Qed.
Example C102_order_example :
  Permutation.Permutation DOI_TRUNCATE_AT_TOKENS (rev DOI_TRUNCATE_AT_TOKENS) /\
  stop_start ascii_space ascii_word ascii_digit ascii_fold (rev DOI_TRUNCATE_AT_TOKENS) (u "10.1/a pmidx (pubmed 1") = Some 13.
Proof. split; [apply Permutation.Permutation_rev|]. vm_compute. reflexivity. Qed.

Print Assumptions C102_doi.
Print Assumptions C102_title.
Print Assumptions C102_stop.
Print Assumptions C102_order.
Print Assumptions C102_compile.
