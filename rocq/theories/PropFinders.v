(** C103: what the searches for identifiers find *)
From Verif Require Import Base ModelJatsText ModelRegex ModelPatterns PropRegex PropRegexRun PropJatsText.
Open Scope nat_scope.

(* ------------------------------------------------------------------ *)
(** ** Searches by a description *)
(** [S p pre id post q]: after the character [p] there is [pre], the identifier [id] and [post],
    and [q] follows *)
Definition description := option N -> str -> str -> str -> str -> Prop.
(** the last character of a text *)
Definition last_of (a : str) : option N := hd_error (rev a).
(** the first place that fits the description *)
Definition finds (f : str -> option (nat * nat)) (S : description) : Prop := forall text,
  match f text with
  | Some (i, j) =>
      exists a pre id post q, text = a ++ pre ++ id ++ post ++ q /\ S (last_of a) pre id post q /\
        i = length (a ++ pre) /\ j = length (a ++ pre ++ id) /\
        forall a' pre' id' post' q', text = a' ++ pre' ++ id' ++ post' ++ q' -> S (last_of a') pre' id' post' q' -> length a <= length a'
  | None => forall a pre id post q, text = a ++ pre ++ id ++ post ++ q -> ~ S (last_of a) pre id post q
  end.
Definition all (f : N -> bool) (s : str) : Prop := forall x, In x s -> f x = true.
(** no letter, digit or underscore comes next, or came last *)
Definition no_word (wd : N -> bool) (c : option N) : Prop := forall x, c = Some x -> wd x = false.

Lemma after_last_of : forall a, after None a = last_of a.
Proof.
  intros a. unfold last_of. destruct a as [|c a] using rev_ind; [reflexivity|]. now rewrite after_last, rev_app_distr.
Qed.
Lemma finds_range f S : finds f S -> forall t i j, f t = Some (i, j) -> i <= j <= length t.
Proof.
  intros H t i j E. specialize (H t). rewrite E in H. destruct H as (a & pre & id & post & q & -> & _ & -> & -> & _). rewrite !app_length. lia.
Qed.

Section Finders.
Variables sp wd dg : N -> bool.
Variable fold : N -> N.
Notation reads := (reads sp wd dg fold).

(** *** How readings and descriptions go together *)
Lemma find_by p (S : description) :
  (forall pr i w q g, reads (pt_ic p) (pt_re p) pr i w q g ->
     exists pre id post, w = pre ++ id ++ post /\ group_in 1 g = Some (i + length pre, i + length pre + length id) /\ S pr pre id post q) ->
  (forall pr i pre id post q, S pr pre id post q -> exists w q' g, pre ++ id ++ post ++ q = w ++ q' /\ reads (pt_ic p) (pt_re p) pr i w q' g) ->
  finds (find_re sp wd dg fold p) S.
Proof.
  intros H1 H2 text. unfold find_re. pose proof (C101_search sp wd dg fold p text) as C. destruct (re_search sp wd dg fold p text) as [m|].
  - destruct C as (a & w & q & -> & R & _ & _ & L). unfold occurs in R. rewrite after_last_of in R.
    destruct (H1 _ _ _ _ _ R) as (pre & id & post & -> & G & HS). change (group 1 m) with (group_in 1 (fo_groups m)). rewrite G.
    exists a, pre, id, post, q. split; [now rewrite <- !app_assoc|]. split; [exact HS|]. rewrite !app_length. split; [reflexivity|]. split; [lia|].
    intros a' pre' id' post' q' E HS'. destruct (H2 _ (length a') _ _ _ _ HS') as (w' & q'' & g & Ew & R'). apply (L a' w' q'' g); [now rewrite E, Ew|]. unfold occurs. now rewrite after_last_of.
  - intros a pre id post q -> HS. destruct (H2 _ (length a) _ _ _ _ HS) as (w' & q'' & g & Ew & R'). apply (C a w' q'' g); [now rewrite Ew|]. unfold occurs. now rewrite after_last_of.
Qed.
Lemma find_by_first p (S : description) :
  (forall pr i s y, bt sp wd dg fold (pt_ic p) (pt_re p) (mkPlace i pr s []) Some = Some y ->
     exists pre id post q, s = pre ++ id ++ post ++ q /\ group_in 1 (pl_groups y) = Some (i + length pre, i + length pre + length id) /\ S pr pre id post q) ->
  (forall pr i pre id post q, S pr pre id post q -> exists w q' g, pre ++ id ++ post ++ q = w ++ q' /\ reads (pt_ic p) (pt_re p) pr i w q' g) ->
  finds (find_re sp wd dg fold p) S.
Proof.
  intros H1 H2 text. unfold find_re. pose proof (C101_search sp wd dg fold p text) as C. destruct (re_search sp wd dg fold p text) as [m|] eqn:Em.
  - apply C101_preferred in Em as (a & r & y & l & -> & Ew & ->). rewrite after_last_of in Ew.
    destruct (H1 (last_of a) (length a) r y) as (pre & id & post & q & -> & G & HS); [rewrite bt_ways, Ew; reflexivity|].
    change (group 1 _) with (group_in 1 (pl_groups y)). rewrite G. destruct C as (a0 & w & q0 & _ & R & E0 & _ & L). cbn in E0.
    exists a, pre, id, post, q. split; [reflexivity|]. split; [exact HS|]. rewrite !app_length. split; [reflexivity|]. split; [lia|].
    intros a' pre' id' post' q' E HS'. destruct (H2 _ (length a') _ _ _ _ HS') as (w' & q'' & g & Ew' & R'). rewrite E0. apply (L a' w' q'' g); [now rewrite E, Ew'|]. unfold occurs. now rewrite after_last_of.
  - intros a pre id post q -> HS. destruct (H2 _ (length a) _ _ _ _ HS) as (w' & q'' & g & Ew & R'). apply (C a w' q'' g); [now rewrite Ew|]. unfold occurs. now rewrite after_last_of.
Qed.
Lemma run_kind ic k w : Forall (in_set sp wd dg fold ic false [IKind k false]) w <-> all (kind_ok sp wd dg k) w.
Proof.
  rewrite Forall_forall. unfold all. split; intros H x Hx; specialize (H x Hx); [apply in_kind in H|apply in_kind]; now destruct k.
Qed.
Lemma run_not_kind ic k w : Forall (in_set sp wd dg fold ic false [IKind k true]) w <-> all (fun x => negb (kind_ok sp wd dg k x)) w.
Proof.
  rewrite Forall_forall. unfold all. split; intros H x Hx; specialize (H x Hx).
  - apply in_not_kind in H. apply negb_true_iff. destruct (kind_ok sp wd dg k x) eqn:E; [|reflexivity]. now apply kind_ok_spec in E.
  - apply in_not_kind. apply negb_true_iff in H. intros K. apply kind_ok_spec in K. congruence.
Qed.

(** *** Classes *)
Record usual : Prop := mkUsual {
  dg_wd : forall c, dg c = true -> wd c = true;
  sp_wd : forall c, sp c = true -> wd c = false;
  x_wd : forall c, In c (u "0123456789xX") -> wd c = true;
  plain_wd : forall c, In c (u ":[") -> wd c = false;
  fold_colon : forall c, fold c = fold 58%N -> c = 58%N }.
Hypothesis Hu : usual.

Lemma after_word p w : w <> [] -> all wd w -> word_char wd (after p w).
Proof.
  intros Hn Hw. destruct w as [|c w _] using rev_ind; [contradiction|]. rewrite after_last. exists c. split; [reflexivity|]. apply Hw, in_or_app. right. now left.
Qed.
Lemma bound_end p w q : w <> [] -> all wd w -> PropRegex.boundary wd (after p w) q <-> no_word wd (hd_error q).
Proof.
  intros Hn Hw. pose proof (after_word p w Hn Hw) as A. unfold PropRegex.boundary, no_word. split.
  - intros B x E. destruct (wd x) eqn:Ex; [|reflexivity]. destruct B. split; intros _; [exists x; auto|exact A].
  - intros K [B _]. destruct (B A) as (x & E & Ex). rewrite (K x E) in Ex. discriminate.
Qed.
Lemma bound_start p w q : w <> [] -> all wd w -> PropRegex.boundary wd p (w ++ q) <-> no_word wd p.
Proof.
  intros Hn Hw. destruct w as [|c w]; [contradiction|]. assert (A : word_char wd (hd_error ((c :: w) ++ q))) by (exists c; split; [reflexivity|apply Hw; now left]).
  unfold PropRegex.boundary, no_word. split.
  - intros B x ->. destruct (wd x) eqn:Ex; [|reflexivity]. destruct B. split; intros _; [exact A|now exists x].
  - intros K [_ B]. destruct (B A) as (x & E & Ex). rewrite (K x E) in Ex. discriminate.
Qed.
Lemma digits_word w : all dg w -> all wd w.
Proof. intros H x Hx. now apply (dg_wd Hu), H. Qed.

(* ------------------------------------------------------------------ *)
(** ** PMIDs *)
(** a word, white space, a colon and white space *)
Definition colon_prefix (word pre : str) : Prop := exists s1 s2, pre = word ++ s1 ++ [58%N] ++ s2 /\ all sp s1 /\ all sp s2.
Definition number (lo hi : nat) (id : str) : Prop := all dg id /\ lo <= length id <= hi.
Definition pmid : description := fun p pre id post q =>
  colon_prefix (u "PMID") pre /\ number 1 10 id /\ post = [] /\ no_word wd (hd_error q).
Ltac rseq a b := eapply (mk_seq _ _ _ _ _ _ _ _ _ a b); [first [reflexivity|now rewrite ?app_nil_r|now rewrite <- ?app_assoc, ?app_nil_r]|reflexivity| |].
Ltac rlit c w := rseq [c] w; [apply mk_lit|].
Ltac rrun w r := rseq w r; [apply mk_run; [first [exact I|lia]| |try lia|first [exact I|lia]]|].
Ltac rend := rseq (@nil N) (@nil N); [|constructor].
Theorem C103_pmid : finds (find_pmid sp wd dg fold) pmid.
Proof.
  unfold find_pmid. set (p := compiled PMID_PATTERN). vm_compute in p. subst p. apply find_by; cbn [pt_ic pt_re].
  - intros pr i w q g R. read_cases. exists (u "PMID" ++ w6 ++ [58%N] ++ w8), w0, []. rewrite !app_nil_r in *.
    split; [reflexivity|]. split; [reflexivity|]. apply run_kind in F, F0, F1. split; [exists w6, w8; auto|]. split; [split; assumption|]. split; [reflexivity|].
    apply bound_end in E; [exact E|intros ->; cbn in L; lia|now apply digits_word].
  - intros pr i pre id post q ((s1 & s2 & -> & H1 & H2) & (H3 & H4) & -> & H5). exists ((u "PMID" ++ s1 ++ [58%N] ++ s2) ++ id), q. eexists. split; [now rewrite <- !app_assoc|].
    rseq (u "PMID" ++ s1 ++ [58%N] ++ s2) id.
    + rlit 80%N (u "MID" ++ s1 ++ [58%N] ++ s2). rlit 77%N (u "ID" ++ s1 ++ [58%N] ++ s2). rlit 73%N (u "D" ++ s1 ++ [58%N] ++ s2). rlit 68%N (s1 ++ [58%N] ++ s2).
      rrun s1 (58%N :: s2); [now apply run_kind|]. rlit 58%N s2. rrun s2 (@nil N); [now apply run_kind|]. constructor.
    + rseq id (@nil N).
      * constructor. rrun id (@nil N); [now apply run_kind|]. constructor.
      * rend. constructor. apply bound_end; [intros ->; cbn in H4; lia|now apply digits_word|exact H5].
Qed.

(** with the word or, not within a word, without it *)
Definition pmid_fix : description := fun p pre id post q =>
  ((pre = [] /\ no_word wd p) \/ colon_prefix (u "PMID") pre) /\ number 1 10 id /\ post = [] /\ no_word wd (hd_error q).
Lemma prefix_no_word word p pre : colon_prefix word pre -> no_word wd (after p pre).
Proof.
  intros (s1 & s2 & -> & _ & H). rewrite !after_app. set (p' := after (after p word) s1). cbn [after fold_left]. intros x E.
  destruct s2 as [|c s2 _] using rev_ind.
  - injection E as <-. apply (plain_wd Hu). now left.
  - rewrite after_last in E. injection E as <-. apply (sp_wd Hu), H, in_or_app. right. now left.
Qed.
Theorem C103_pmid_fix : finds (find_pmid_fix sp wd dg fold) pmid_fix.
Proof.
  unfold find_pmid_fix. set (p := compiled PMID_FIX_PATTERN). vm_compute in p. subst p. apply find_by; cbn [pt_ic pt_re].
  - intros pr i w q g R. read_cases.
    + exists [], w3, []. rewrite !app_nil_r in *. cbn [app length after fold_left] in *. rewrite !Nat.add_0_r. apply run_kind in F. assert (W : all wd w3) by now apply digits_word. assert (N1 : w3 <> []) by (intros ->; cbn in L; lia).
      split; [reflexivity|]. split; [reflexivity|]. split; [left; split; [reflexivity|]; now apply bound_start in E0|]. split; [split; assumption|]. split; [reflexivity|]. now apply bound_end in E.
    + apply run_kind in F, F0, F1. exists (u "PMID" ++ w4 ++ [58%N] ++ w6), w3, []. rewrite !app_nil_r in *. split; [reflexivity|]. split; [cbn [app length group_in Nat.eqb]; rewrite ?Nat.add_0_r; reflexivity|]. split; [right; exists w4, w6; auto|].
      split; [split; assumption|]. split; [reflexivity|]. apply bound_end in E; [exact E|intros ->; cbn in L; lia|now apply digits_word].
  - intros pr i pre id post q (Hp & (H3 & H4) & -> & H5). exists (pre ++ id), q. assert (W : all wd id) by now apply digits_word. assert (N1 : id <> []) by (intros ->; cbn in H4; lia).
    assert (B : no_word wd (after pr pre)) by (destruct Hp as [[-> Hp]|Hp]; [exact Hp|eapply prefix_no_word; exact Hp]).
    assert (R0 : exists g, reads false (RRep true 0 (Some 1) (RSeq (RLit 80%N) (RSeq (RLit 77%N) (RSeq (RLit 73%N) (RSeq (RLit 68%N) (RSeq (RRep true 0 None (RKind KSpace false)) (RSeq (RLit 58%N) (RSeq (RRep true 0 None (RKind KSpace false)) REmpty)))))))) pr i pre (id ++ q) g).
    { destruct Hp as [[-> _]|(s1 & s2 & -> & H1 & H2)]; [eexists; constructor|]. eexists. apply mk_opt; [discriminate|].
      rlit 80%N (u "MID" ++ s1 ++ [58%N] ++ s2). rlit 77%N (u "ID" ++ s1 ++ [58%N] ++ s2). rlit 73%N (u "D" ++ s1 ++ [58%N] ++ s2). rlit 68%N (s1 ++ [58%N] ++ s2).
      rrun s1 (58%N :: s2); [now apply run_kind|]. rlit 58%N s2. rrun s2 (@nil N); [now apply run_kind|]. constructor. }
    destruct R0 as [g0 R0]. eexists. split; [now rewrite <- !app_assoc|]. rseq pre id; [exact R0|].
    rseq (@nil N) id; [constructor; now apply bound_start|]. rseq id (@nil N).
    + constructor. rrun id (@nil N); [now apply run_kind|]. constructor.
    + rend. constructor. now apply bound_end.
Qed.

(* ------------------------------------------------------------------ *)
(** ** WOS numbers and PMCIDs, in any case *)
Definition any_case (word v : str) : Prop := Forall2 (fun c a => fold c = fold a) v word.
Ltac lit_cases := repeat match goal with
  | H : PropRegex.reads _ _ _ _ true (RChar false [ILit _]) _ _ _ _ _ |- _ =>
      let x := fresh "c" in let Hx := fresh "Hc" in apply reads_char in H as (x & -> & -> & Hx); apply in_lit in Hx; cbn in Hx
  end.
Definition wos : description := fun p pre id post q =>
  (exists word, any_case (u "WOS") word /\ colon_prefix word pre) /\ number 15 15 id /\ post = [] /\ no_word wd (hd_error q).
Theorem C103_wos : finds (find_wos sp wd dg fold) wos.
Proof.
  unfold find_wos. set (p := ignore_case (compiled WOS_PATTERN)). vm_compute in p. subst p. apply find_by; cbn [pt_ic pt_re].
  - intros pr i w q g R. read_cases. lit_cases. apply (fold_colon Hu) in Hc. subst c. apply run_kind in F, F0, F1. exists ([c2; c1; c0] ++ w5 ++ [58%N] ++ w7), w3, []. rewrite !app_nil_r in *.
    split; [reflexivity|]. split; [reflexivity|]. split; [exists [c2; c1; c0]; split; [now repeat constructor|exists w5, w7; auto]|]. split; [split; assumption|]. split; [reflexivity|].
    apply bound_end in E; [exact E|intros ->; cbn in L; lia|now apply digits_word].
  - intros pr i pre id post q ((word & Hw & s1 & s2 & -> & H1 & H2) & (H3 & H4) & -> & H5). inversion Hw as [|c1 ? t1 ? Hc1 Hw1]; subst. inversion Hw1 as [|c2 ? t2 ? Hc2 Hw2]; subst. inversion Hw2 as [|c3 ? t3 ? Hc3 Hw3]; subst. inversion Hw3; subst.
    exists (([c1; c2; c3] ++ s1 ++ [58%N] ++ s2) ++ id), q. eexists. split; [now rewrite <- !app_assoc|].
    rseq ([c1; c2; c3] ++ s1 ++ [58%N] ++ s2) id.
    + rseq [c1] ([c2; c3] ++ s1 ++ [58%N] ++ s2); [constructor; now apply in_lit|]. rseq [c2] ([c3] ++ s1 ++ [58%N] ++ s2); [constructor; now apply in_lit|]. rseq [c3] (s1 ++ [58%N] ++ s2); [constructor; now apply in_lit|].
      rrun s1 (58%N :: s2); [now apply run_kind|]. rlit 58%N s2. rrun s2 (@nil N); [now apply run_kind|]. constructor.
    + rseq id (@nil N).
      * constructor. rrun id (@nil N); [now apply run_kind|]. constructor.
      * rend. constructor. apply bound_end; [intros ->; cbn in H4; lia|now apply digits_word|exact H5].
Qed.

(** all digits after "PMC" *)
Definition pmcid : description := fun p pre id post q =>
  pre = [] /\ (exists word ds, id = word ++ ds /\ any_case (u "PMC") word /\ all dg ds /\ ds <> []) /\ post = [] /\ (forall c, hd_error q = Some c -> dg c = false).
Lemma bt_char_seq ic neg l r x k : bt sp wd dg fold ic (RSeq (RChar neg l) r) x k =
  match pl_rest x with c :: s => if char_ok sp wd dg fold ic neg l c then bt sp wd dg fold ic r (mkPlace (S (pl_pos x)) (Some c) s (pl_groups x)) k else None | [] => None end.
Proof. reflexivity. Qed.
Lemma bt_group_seq ic n a r x k : bt sp wd dg fold ic (RSeq (RGroup n a) r) x k =
  bt sp wd dg fold ic a x (fun y => bt sp wd dg fold ic r (mkPlace (pl_pos y) (pl_prev y) (pl_rest y) ((n, (pl_pos x, pl_pos y)) :: pl_groups y)) k).
Proof. reflexivity. Qed.
Lemma bt_seq_empty ic a x k : bt sp wd dg fold ic (RSeq a REmpty) x k = bt sp wd dg fold ic a x (fun y => k y).
Proof. reflexivity. Qed.
Lemma char_ok_lit a c : char_ok sp wd dg fold true false [ILit a] c = N.eqb (fold c) (fold a).
Proof. unfold char_ok. cbn [existsb item_ok]. rewrite orb_false_r. now destruct (N.eqb (fold c) (fold a)). Qed.
Lemma char_ok_kind k c ic : char_ok sp wd dg fold ic false [IKind k false] c = kind_ok sp wd dg k c.
Proof. unfold char_ok. cbn [existsb item_ok]. rewrite orb_false_r. now destruct (kind_ok sp wd dg k c). Qed.
Theorem C103_pmcid : finds (find_pmcid sp wd dg fold) pmcid.
Proof.
  unfold find_pmcid. set (p := ignore_case (compiled PMCID_PATTERN)). vm_compute in p. subst p. apply find_by_first; cbn [pt_ic pt_re].
  - intros pr i s y. rewrite bt_group_seq. cbn [pl_pos].
    rewrite bt_char_seq. cbn [pl_rest pl_pos pl_groups]. destruct s as [|c1 s]; [discriminate|]. rewrite char_ok_lit. destruct (N.eqb_spec (fold c1) (fold 80)) as [E1|]; [|discriminate].
    rewrite bt_char_seq. cbn [pl_rest pl_pos pl_groups]. destruct s as [|c2 s]; [discriminate|]. rewrite char_ok_lit. destruct (N.eqb_spec (fold c2) (fold 77)) as [E2|]; [|discriminate].
    rewrite bt_char_seq. cbn [pl_rest pl_pos pl_groups]. destruct s as [|c3 s]; [discriminate|]. rewrite char_ok_lit. destruct (N.eqb_spec (fold c3) (fold 67)) as [E3|]; [|discriminate].
    rewrite bt_seq_empty.
    set (x := mkPlace _ _ s []). destruct (Nat.le_gt_cases 1 (run (char_ok sp wd dg fold true false [IKind KDigit false]) (pl_rest x))) as [L|L].
    + rewrite bt_run_greedy; [|exact L|discriminate]. intros [= <-]. cbn [pl_rest x] in L. cbn [pl_groups group_in Nat.eqb adv moved pl_pos x pl_rest].
      set (f := char_ok sp wd dg fold true false [IKind KDigit false]) in *. exists [], ([c1; c2; c3] ++ firstn (run f s) s), [], (skipn (run f s) s). cbn [app]. rewrite firstn_skipn. split; [reflexivity|].
      split; [cbn; f_equal; f_equal; lia|]. split; [reflexivity|]. split; [|split; [reflexivity|]].
      * exists [c1; c2; c3], (firstn (run f s) s). split; [reflexivity|]. split; [now repeat constructor|]. split.
        -- intros d Hd. pose proof (run_all f s) as R. rewrite Forall_forall in R. specialize (R d Hd). unfold f in R. now rewrite char_ok_kind in R.
        -- intros K. apply (f_equal (@length N)) in K. rewrite firstn_length in K. pose proof (run_le f s). cbn in K. lia.
      * intros d Hd. destruct (skipn (run f s) s) as [|d' q'] eqn:Eq; [discriminate|]. injection Hd as ->. apply run_stop in Eq. unfold f in Eq. now rewrite char_ok_kind in Eq.
    + rewrite bt_run_short; [discriminate|exact I|exact L].
  - intros pr i pre id post q (-> & (word & ds & -> & Hw & H1 & H2) & -> & _). inversion Hw as [|c1 ? t1 ? Hc1 Hw1]; subst. inversion Hw1 as [|c2 ? t2 ? Hc2 Hw2]; subst. inversion Hw2 as [|c3 ? t3 ? Hc3 Hw3]; subst. inversion Hw3; subst.
    exists ([c1; c2; c3] ++ ds), q. eexists. split; [now rewrite <- !app_assoc|]. rseq ([c1; c2; c3] ++ ds) (@nil N); [|constructor]. constructor.
    rseq [c1] ([c2; c3] ++ ds); [constructor; now apply in_lit|]. rseq [c2] ([c3] ++ ds); [constructor; now apply in_lit|]. rseq [c3] ds; [constructor; now apply in_lit|].
    rrun ds (@nil N); [now apply run_kind|destruct ds; [contradiction|cbn; lia]|]. constructor.
Qed.

(* ------------------------------------------------------------------ *)
(** ** Identifiers before "[pii]" *)
Lemma bt_some ic r x k y : bt sp wd dg fold ic r x k = Some y ->
  exists w q g, pl_rest x = w ++ q /\ reads ic r (pl_prev x) (pl_pos x) w q g /\ k (moved x w q g) = Some y.
Proof.
  rewrite bt_ways. intros H. apply first_some_in in H as (z & Hz & Hk). apply ways_reads in Hz as (w & q & g & E & R & ->). exists w, q, g. auto.
Qed.
Lemma bt_none ic r x k w q g : bt sp wd dg fold ic r x k = None ->
  pl_rest x = w ++ q -> reads ic r (pl_prev x) (pl_pos x) w q g -> k (moved x w q g) = None.
Proof.
  rewrite bt_ways. intros H E R. rewrite first_some_none in H. apply H. apply ways_reads. exists w, q, g. auto.
Qed.
Lemma bt_opt ic a x k y : bt sp wd dg fold ic (RRep true 0 (Some 1) a) x k = Some y ->
  (exists w q g, pl_rest x = w ++ q /\ w <> [] /\ reads ic a (pl_prev x) (pl_pos x) w q g /\ k (moved x w q g) = Some y) \/
  (k x = Some y /\ forall w q g, pl_rest x = w ++ q -> w <> [] -> reads ic a (pl_prev x) (pl_pos x) w q g -> k (moved x w q g) = None).
Proof.
  cbn [bt repeat_body]. destruct (pl_rest x) as [|c s] eqn:Er; cbn [length more].
  - intros H. right. split; [exact H|]. intros w q g Ew Hw. destruct w; [contradiction|discriminate].
  - set (k' := fun z => _). destruct (bt sp wd dg fold ic a x k') as [z|] eqn:Eb.
    + intros [= ->]. left. apply bt_some in Eb as (w & q & g & Ew & R & Hk). exists w, q, g. rewrite <- Er. split; [exact Ew|]. unfold k' in Hk.
      destruct (pl_pos (moved x w q g) =? pl_pos x) eqn:Ep; [discriminate|]. split; [intros ->; rewrite (proj2 (moved_pos x [] q g) eq_refl) in Ep; discriminate|]. split; [exact R|].
      cbn [option_map pred] in Hk. destruct (length s); cbn [more] in Hk; exact Hk.
    + intros H. right. split; [exact H|]. intros w q g Ew Hw R. rewrite <- Er in Ew. pose proof (bt_none _ _ _ _ _ _ _ Eb Ew R) as Hn. unfold k' in Hn.
      destruct (pl_pos (moved x w q g) =? pl_pos x) eqn:Ep; [now apply moved_pos in Ep|]. cbn [option_map pred] in Hn. destruct (length s); cbn [more] in Hn; exact Hn.
Qed.
Lemma first_some_down {B} (k : nat -> option B) y a : forall m, first_some k (rev (seq a m)) = Some y ->
  exists n, a <= n < a + m /\ k n = Some y /\ forall n', n < n' < a + m -> k n' = None.
Proof.
  induction m as [|m IH]; [discriminate|]. rewrite seq_split_last, rev_app_distr. cbn [rev app first_some]. destruct (k (a + m)) as [z|] eqn:Ek.
  - intros [= ->]. exists (a + m). split; [lia|]. split; [exact Ek|]. intros n' Hn. lia.
  - intros H. destruct (IH H) as (n & Hn & Hk & Hl). exists n. split; [lia|]. split; [exact Hk|]. intros n' Hn'. destruct (Nat.eq_dec n' (a + m)) as [->|]; [exact Ek|]. apply Hl. lia.
Qed.
Lemma bt_run_longest ic neg l lo x k y : bt sp wd dg fold ic (RRep true lo None (RChar neg l)) x k = Some y ->
  exists n, lo <= n <= run (char_ok sp wd dg fold ic neg l) (pl_rest x) /\ k (adv x n) = Some y /\
    forall n', n < n' <= run (char_ok sp wd dg fold ic neg l) (pl_rest x) -> k (adv x n') = None.
Proof.
  rewrite bt_ways, ways_run by exact I. rewrite first_some_map. unfold counts. cbn [capped]. intros H. apply first_some_down in H as (n & Hn & Hk & Hl).
  exists n. split; [lia|]. split; [exact Hk|]. intros n' Hn'. apply Hl. lia.
Qed.

(** five or more characters that are not white space, and "[pii]" *)
Definition pii_tail (id post : str) : Prop :=
  all (fun c => negb (sp c)) id /\ 5 <= length id /\ exists s, all sp s /\ post = s ++ u "[pii]".
(** as much as possible, and without "doi:" if that leaves enough *)
Definition pii_other : description := fun p pre id post q =>
  PropRegex.boundary wd p (pre ++ id) /\ pii_tail id post /\
  (forall id' post' q', id ++ post ++ q = id' ++ post' ++ q' -> pii_tail id' post' -> length id' <= length id) /\
  (pre = u "doi:" \/ pre = [] /\ forall id' post' q', id ++ post ++ q = u "doi:" ++ id' ++ post' ++ q' -> ~ pii_tail id' post').
Definition tail_re : re :=
  RSeq (RRep true 0 None (RChar false [IKind KSpace false])) (RSeq (RChar false [ILit 91%N]) (RSeq (RChar false [ILit 112%N])
    (RSeq (RChar false [ILit 105%N]) (RSeq (RChar false [ILit 105%N]) (RSeq (RChar false [ILit 93%N]) REmpty))))).
Definition pii_re : re := RSeq (RGroup 1 (RSeq (RRep true 5 None (RChar false [IKind KSpace true])) REmpty)) tail_re.
Definition doi_re : re := RSeq (RChar false [ILit 100%N]) (RSeq (RChar false [ILit 111%N]) (RSeq (RChar false [ILit 105%N]) (RSeq (RChar false [ILit 58%N]) REmpty))).
Lemma reads_eq ic r p i w q g g' : reads ic r p i w q g' -> g' = g -> reads ic r p i w q g.
Proof. now intros R <-. Qed.
Lemma tail_reads p i w q g : reads false tail_re p i w q g <-> g = [] /\ exists s, all sp s /\ w = s ++ u "[pii]".
Proof.
  split.
  - intros R. unfold tail_re in R. read_cases. split; [reflexivity|]. eexists. apply run_kind in F. split; [exact F|]. reflexivity.
  - intros (-> & s & Hs & ->). unfold tail_re. eapply reads_eq; [|]. { rrun s (u "[pii]"); [now apply run_kind|].
    rlit 91%N (u "pii]"). rlit 112%N (u "ii]"). rlit 105%N (u "i]"). rlit 105%N (u "]"). rlit 93%N (@nil N). constructor. } reflexivity.
Qed.
Lemma pii_reads p i w q g : reads false pii_re p i w q g <-> exists id post, w = id ++ post /\ pii_tail id post /\ g = [(1, (i, i + length id))].
Proof.
  unfold pii_re. split.
  - intros R. apply reads_seq in R as (id & post & g1 & g2 & -> & -> & R & R'). apply tail_reads in R' as (-> & s & Hs & ->). read_cases. apply run_not_kind in F. rewrite !app_nil_r.
    eexists _, _. split; [reflexivity|]. split; [split; [exact F|]; split; [lia|]; eauto|reflexivity].
  - intros (id & post & -> & (H1 & H2 & s & Hs & ->) & ->). eapply (mk_seq _ _ _ _ _ _ _ _ _ id (s ++ u "[pii]") _ _ [(1, (i, i + length id))] []); [reflexivity|reflexivity| |apply tail_reads; eauto].
    constructor. eapply reads_eq; [rrun id (@nil N); [now apply run_not_kind|]; constructor|reflexivity].
Qed.
Lemma doi_reads p i w q g : reads false doi_re p i w q g <-> w = u "doi:" /\ g = [].
Proof.
  unfold doi_re. split; [intros R; read_cases; auto|]. intros [-> ->]. eapply reads_eq; [|]. { rlit 100%N (u "oi:"). rlit 111%N (u "i:"). rlit 105%N (u ":"). rlit 58%N (@nil N). constructor. } reflexivity.
Qed.
Lemma char_ok_not_kind k c ic : char_ok sp wd dg fold ic false [IKind k true] c = negb (kind_ok sp wd dg k c).
Proof. unfold char_ok. cbn [existsb item_ok]. rewrite orb_false_r. now destruct (kind_ok sp wd dg k c). Qed.
Lemma run_ge f (w q : str) : all f w -> length w <= run f (w ++ q).
Proof. induction w as [|c w IH]; intros H; [cbn; lia|]. cbn. rewrite (H c (or_introl eq_refl)). specialize (IH (fun x Hx => H x (or_intror Hx))). lia. Qed.
Lemma pii_longest x y : bt sp wd dg fold false pii_re x Some = Some y ->
  exists id post q, pl_rest x = id ++ post ++ q /\ pii_tail id post /\ pl_groups y = (1, (pl_pos x, pl_pos x + length id)) :: pl_groups x /\
    forall id' post' q', pl_rest x = id' ++ post' ++ q' -> pii_tail id' post' -> length id' <= length id.
Proof.
  unfold pii_re. rewrite bt_group_seq, bt_seq_empty. intros H. apply bt_run_longest in H as (n & Hn & Hk & Hl). set (f := char_ok sp wd dg fold false false [IKind KSpace true]) in *.
  pose proof (run_le f (pl_rest x)) as Lr. apply bt_some in Hk as (w & q & g & E & R & Hy). cbn [pl_rest adv moved] in E. apply tail_reads in R as (-> & s & Hs & ->). injection Hy as <-.
  assert (Ln : length (firstn n (pl_rest x)) = n) by (rewrite firstn_length; lia).
  exists (firstn n (pl_rest x)), (s ++ u "[pii]"), q. split; [rewrite <- E; symmetry; apply firstn_skipn|]. split; [|split].
  - split; [|split; [lia|eauto]]. intros c Hc. pose proof (run_all f (pl_rest x)) as Ra. rewrite Forall_forall in Ra. replace n with (Nat.min n (run f (pl_rest x))) in Hc by lia. rewrite <- firstn_firstn in Hc.
    assert (Hc' : In c (firstn (run f (pl_rest x)) (pl_rest x))) by (rewrite <- (firstn_skipn n (firstn _ _)); apply in_or_app; now left). specialize (Ra c Hc'). unfold f in Ra. now rewrite char_ok_not_kind in Ra.
  - reflexivity.
  - intros id' post' q' E' (H1 & H2 & s' & Hs' & ->). rewrite Ln. destruct (Nat.le_gt_cases (length id') n) as [|Hgt]; [assumption|exfalso].
    assert (Hr : length id' <= run f (pl_rest x)) by (rewrite E'; apply run_ge; intros c Hc; unfold f; rewrite char_ok_not_kind; now apply H1).
    specialize (Hl (length id') ltac:(lia)). eapply bt_none with (w := s' ++ u "[pii]") (q := q') (g := []) in Hl; [discriminate| |apply tail_reads; eauto].
    cbn [pl_rest adv moved]. rewrite E'. now rewrite skipn_app, skipn_all, Nat.sub_diag.
Qed.
Theorem C103_pii_other : finds (find_pii_other sp wd dg fold) pii_other.
Proof.
  unfold find_pii_other. set (p := compiled PII_OTHER_PATTERN). vm_compute in p. subst p. apply find_by_first; cbn [pt_ic pt_re].
  - intros pr i s y. change (bt sp wd dg fold false (RSeq (RBound false) (RSeq (RRep true 0 (Some 1) doi_re) pii_re)) (mkPlace i pr s []) Some = Some y -> exists pre id post q, s = pre ++ id ++ post ++ q /\ group_in 1 (pl_groups y) = Some (i + length pre, i + length pre + length id) /\ pii_other pr pre id post q).
    change (bt sp wd dg fold false (RSeq (RBound false) (RSeq (RRep true 0 (Some 1) doi_re) pii_re)) (mkPlace i pr s []) Some) with
      (if xorb false (at_boundary wd (mkPlace i pr s [])) then bt sp wd dg fold false (RRep true 0 (Some 1) doi_re) (mkPlace i pr s []) (fun z => bt sp wd dg fold false pii_re z Some) else None).
    rewrite xorb_false_l. destruct (at_boundary wd (mkPlace i pr s [])) eqn:B; [|discriminate]. apply at_boundary_spec in B. cbn [pl_prev pl_rest] in B. intros H. apply bt_opt in H as [(w & q0 & g & E & _ & R & H)|[H Hno]].
    + apply doi_reads in R as [-> ->]. cbn [pl_rest] in E. apply pii_longest in H as (id & post & q & E' & T & G & L). cbn [pl_rest moved] in E', L. cbn [pl_pos moved pl_groups] in G. subst s q0. exists (u "doi:"), id, post, q. split; [reflexivity|].
      split; [now rewrite G|]. split; [exact B|]. split; [exact T|]. split; [exact L|]. now left.
    + apply pii_longest in H as (id & post & q & E' & T & G & L). cbn [pl_rest] in E', L. cbn [pl_pos pl_groups] in G. exists [], id, post, q. split; [exact E'|].
      split; [rewrite G; cbn; now rewrite Nat.add_0_r|]. split; [|split; [exact T|split; [intros id' post' q' Ei Ti; apply (L id' post' q'); [now rewrite E'|exact Ti]|right; split; [reflexivity|]]]].
      * destruct T as (_ & Hl & _). destruct id as [|c id]; [cbn in Hl; lia|]. subst s. exact B.
      * intros id' post' q' Ed T'. specialize (Hno (u "doi:") (id' ++ post' ++ q') []). rewrite <- E' in Ed. specialize (Hno Ed ltac:(discriminate) (proj2 (doi_reads _ _ _ _ _) (conj eq_refl eq_refl))).
        apply bt_none with (w := id' ++ post') (q := q') (g := [(1, (i + 4, i + 4 + length id'))]) in Hno; [discriminate|cbn [pl_rest moved]; now rewrite <- app_assoc|].
        apply pii_reads. eauto.
  - intros pr i pre id post q (B & T & _ & Hp). exists (pre ++ id ++ post), q.
    assert (R : exists g, reads false (RRep true 0 (Some 1) doi_re) (after pr []) (i + length (@nil N)) pre ((id ++ post) ++ q) g).
    { destruct Hp as [->|[-> _]]; eexists; [apply mk_opt; [discriminate|]; apply doi_reads; eauto|constructor]. }
    destruct R as [g R]. eexists. split; [now rewrite <- !app_assoc|]. rseq (@nil N) (pre ++ id ++ post); [constructor|].
    + destruct T as (_ & Hl & _). destruct pre as [|c pre]; [destruct id; [cbn in Hl; lia|exact B]|exact B].
    + rseq pre (id ++ post); [exact R|]. apply pii_reads. eauto.
Qed.

(* ------------------------------------------------------------------ *)
(** ** PIIs *)
Definition x_char (c : N) : bool := (N.leb 48 c && N.leb c 57) || N.eqb c 120 || N.eqb c 88.
Definition in_pii (c : N) : bool := x_char c || negb (wd c).
(** "S", "B" or a comma; then 16 or more digits or "x", between them anything but letters, digits and underscores *)
Definition pii_form (id : str) : Prop :=
  exists c body d, id = c :: body ++ [d] /\ In c (u "S,B") /\ all in_pii (body ++ [d]) /\ x_char d = true /\ 16 <= length (filter x_char (body ++ [d])).
(** as long as possible *)
Definition pii_valid : description := fun p pre id post q =>
  pre = [] /\ PropRegex.boundary wd p id /\ pii_form id /\ post = [] /\
  forall e q', q = e ++ q' -> e <> [] -> ~ pii_form (id ++ e).

Lemma x_char_wd c : x_char c = true -> wd c = true.
Proof.
  intros H. apply (x_wd Hu). unfold x_char in H. rewrite !orb_true_iff, andb_true_iff, !N.leb_le, !N.eqb_eq in H. cbn.
  assert (K : (c = 48 \/ c = 49 \/ c = 50 \/ c = 51 \/ c = 52 \/ c = 53 \/ c = 54 \/ c = 55 \/ c = 56 \/ c = 57 \/ c = 120 \/ c = 88)%N) by lia. intuition.
Qed.
Definition X_re : re := RChar false [IRange 48%N 57%N; ILit 120%N; ILit 88%N].
Definition W_re : re := RRep true 0 None (RChar false [IKind KWord true]).
Definition unit_re : re := RSeq X_re (RSeq W_re REmpty).
Definition not_wd (c : N) : bool := char_ok sp wd dg fold false false [IKind KWord true] c.
Lemma not_wd_eq c : not_wd c = negb (wd c).
Proof. apply (char_ok_not_kind KWord). Qed.
Lemma X_ok c : char_ok sp wd dg fold false false [IRange 48%N 57%N; ILit 120%N; ILit 88%N] c = x_char c.
Proof. unfold char_ok, x_char. cbn [existsb item_ok]. rewrite !orb_false_r, xorb_false_l, orb_assoc. reflexivity. Qed.
Definition starts_x (s : str) : Prop := exists c s', s = c :: s' /\ x_char c = true.
Definition needs_x (k : place -> option place) : Prop := forall z, ~ starts_x (pl_rest z) -> k z = None.
Lemma starts_x_dec s : {starts_x s} + {~ starts_x s}.
Proof.
  destruct s as [|c s]; [right; now intros (? & ? & ? & _)|]. destruct (x_char c) eqn:E; [left; now exists c, s|right]. intros (c' & s' & [= <- <-] & H). congruence.
Qed.
Lemma adv_rest x n : pl_rest (adv x n) = skipn n (pl_rest x).
Proof. reflexivity. Qed.
Lemma run_nth f (s : str) : forall n, n < run f s -> exists c s', skipn n s = c :: s' /\ f c = true.
Proof.
  induction s as [|d s IH]; intros n H; cbn in H; [lia|]. destruct (f d) eqn:E; [|lia]. destruct n as [|n]; [now exists d, s|]. cbn. apply IH. lia.
Qed.
Lemma W_bt x k : needs_x k -> bt sp wd dg fold false W_re x k = k (adv x (run not_wd (pl_rest x))).
Proof.
  intros Hk. unfold W_re. rewrite bt_run_whole; [reflexivity|exact I|]. intros n Hn. apply Hk. rewrite adv_rest. apply run_nth in Hn as (c & s' & -> & Hc). intros (c' & s'' & [= <- <-] & Hx).
  fold not_wd in Hc. change (not_wd c = true) in Hc. rewrite not_wd_eq, (x_char_wd _ Hx) in Hc. discriminate.
Qed.
Definition eat (x : place) (c : N) (s : str) : place := mkPlace (S (pl_pos x)) (Some c) s (pl_groups x).
Lemma unit_bt x k : needs_x k -> bt sp wd dg fold false unit_re x k =
  match pl_rest x with c :: s => if x_char c then k (adv (eat x c s) (run not_wd s)) else None | [] => None end.
Proof.
  intros Hk. unfold unit_re, X_re. rewrite bt_char_seq. destruct (pl_rest x) as [|c s]; [reflexivity|]. rewrite X_ok. destruct (x_char c); [|reflexivity]. rewrite bt_seq_empty.
  rewrite W_bt by exact Hk. reflexivity.
Qed.
(** starts and ends with a digit or "x" *)
Definition chain (e : str) : Prop := starts_x e /\ all in_pii e /\ exists b d, e = b ++ [d] /\ x_char d = true.
Section Chain.
Variable F : place -> place.
Definition last_x (z : place) : option place := bt sp wd dg fold false (RSeq X_re REmpty) z (fun y => Some (F y)).
Lemma last_x_eq z : last_x z = match pl_rest z with c :: s => if x_char c then Some (F (eat z c s)) else None | [] => None end.
Proof. unfold last_x, X_re. rewrite bt_char_seq. destruct (pl_rest z) as [|c s]; [reflexivity|]. now rewrite X_ok. Qed.
Lemma last_x_needs : needs_x last_x.
Proof.
  intros z H. rewrite last_x_eq. destruct (pl_rest z) as [|c s]; [reflexivity|]. destruct (x_char c) eqn:E; [|reflexivity]. destruct H. now exists c, s.
Qed.
(** a chain goes on over all separators *)
Lemma chain_tail (t b' : str) d : all in_pii t -> t = b' ++ [d] -> x_char d = true -> forall s q, s = t ++ q ->
  exists t', t = firstn (run not_wd s) s ++ t' /\ skipn (run not_wd s) s = t' ++ q /\ chain t'.
Proof.
  intros Ha Eb' Hd s q ->. set (n := run not_wd (t ++ q)).
  assert (Hn : n <= length b').
  { destruct (Nat.le_gt_cases n (length b')) as [|K]; [assumption|exfalso]. apply run_nth in K as (c' & s' & Es & Hc). rewrite Eb', <- app_assoc, skipn_app, skipn_all, Nat.sub_diag in Es. injection Es as <- _. rewrite not_wd_eq, (x_char_wd _ Hd) in Hc. discriminate. }
  exists (skipn n t). assert (Hlt : n <= length t) by (rewrite Eb', app_length; lia).
  assert (E1 : firstn n (t ++ q) = firstn n t) by (rewrite firstn_app; replace (n - length t) with 0 by lia; now rewrite firstn_O, app_nil_r).
  assert (E2 : skipn n (t ++ q) = skipn n t ++ q) by (rewrite skipn_app; now replace (n - length t) with 0 by lia).
  split; [rewrite E1; symmetry; apply firstn_skipn|]. split; [exact E2|].
  assert (E3 : skipn n t = skipn n b' ++ [d]) by (rewrite Eb', skipn_app; now replace (n - length b') with 0 by lia).
  assert (Ha' : all in_pii (skipn n t)) by (intros z Hz; apply Ha; rewrite <- (firstn_skipn n t); apply in_or_app; now right).
  split; [|split; [exact Ha'|now exists (skipn n b'), d]].
  destruct (skipn n t) as [|z r] eqn:Es; [now destruct (skipn n b')|]. exists z, r. split; [reflexivity|]. specialize (Ha' z (or_introl eq_refl)). unfold in_pii in Ha'. apply orb_true_iff in Ha' as [|K]; [assumption|].
  cbn [app] in E2. apply run_stop in E2. rewrite not_wd_eq in E2. congruence.
Qed.
Lemma chain_next c t : chain (c :: t) -> forall s q, s = t ++ q -> t <> [] ->
  exists t', t = firstn (run not_wd s) s ++ t' /\ skipn (run not_wd s) s = t' ++ q /\ chain t'.
Proof.
  intros (_ & Ha & b & d & Eb & Hd) s q Es Ht.
  destruct b as [|c' b']; [injection Eb as -> ->; contradiction|]. injection Eb as -> Eb. apply (chain_tail t b' d); auto. intros z Hz. apply Ha. now right.
Qed.
Lemma chain_more c (s w t : str) : x_char c = true -> s = w ++ t -> all not_wd w -> chain t -> chain (c :: w ++ t).
Proof.
  intros Hc _ Hw (_ & Ha & b & d & -> & Hd). split; [now exists c, (w ++ b ++ [d])|]. split; [|exists (c :: w ++ b), d; split; [cbn [app]; now rewrite <- app_assoc|exact Hd]].
  intros z [<-|Hz]; [unfold in_pii; now rewrite Hc|]. apply in_app_or in Hz as [Hz|Hz]; [|now apply Ha]. specialize (Hw z Hz). rewrite not_wd_eq in Hw. unfold in_pii. now rewrite Hw, orb_true_r.
Qed.
Lemma run_take f (s : str) : all f (firstn (run f s) s).
Proof. intros c Hc. pose proof (run_all f s) as R. rewrite Forall_forall in R. now apply R. Qed.
Definition longest (s e : str) : Prop := forall e' q', s = e' ++ q' -> chain e' -> length e' <= length e.
Lemma longest_next c s e : starts_x (skipn (run not_wd s) s) -> longest (skipn (run not_wd s) s) e -> longest (c :: s) (c :: firstn (run not_wd s) s ++ e).
Proof.
  intros _ H e' q' E C. destruct e' as [|c' t]; [cbn; lia|]. injection E as <- E. destruct t as [|c1 t1]; [cbn; lia|]. destruct (chain_next c (c1 :: t1) C s q' E ltac:(discriminate)) as (t' & Et & Es & Ct).
  specialize (H t' q' Es Ct). rewrite Et. cbn. rewrite !app_length. lia.
Qed.
Lemma longest_one c s : ~ starts_x (skipn (run not_wd s) s) -> longest (c :: s) [c].
Proof.
  intros H e' q' E C. destruct e' as [|c' t]; [cbn; lia|]. injection E as <- E. destruct t as [|c1 t1]; [cbn; lia|]. exfalso. destruct (chain_next c (c1 :: t1) C s q' E ltac:(discriminate)) as (t' & _ & Es & ((z & r & -> & Hz) & _)).
  apply H. rewrite Es. now exists z, (r ++ q').
Qed.
Lemma more_no_chain fuel x : ~ starts_x (pl_rest x) -> more true (bt sp wd dg fold false unit_re) fuel None x last_x = None.
Proof.
  intros H. assert (Hu' : forall k, bt sp wd dg fold false unit_re x k = None).
  { intros k. unfold unit_re, X_re. rewrite bt_char_seq. destruct (pl_rest x) as [|c s]; [reflexivity|]. rewrite X_ok. destruct (x_char c) eqn:E; [|reflexivity]. destruct H. now exists c, s. }
  destruct fuel; cbn [more]; [|rewrite Hu']; now apply last_x_needs.
Qed.
Lemma more_chain : forall fuel x, length (pl_rest x) <= fuel -> starts_x (pl_rest x) ->
  exists e q, pl_rest x = e ++ q /\ chain e /\ longest (pl_rest x) e /\ more true (bt sp wd dg fold false unit_re) fuel None x last_x = Some (F (moved x e q [])).
Proof.
  induction fuel as [|fuel IH]; intros x Hl Hx.
  - exfalso. destruct Hx as (? & ? & E & _). rewrite E in Hl. cbn in Hl. lia.
  - destruct Hx as (c & s & Er & Hc). cbn [more]. rewrite unit_bt.
    + rewrite Er, Hc. set (z := adv (eat x c s) (run not_wd s)). assert (Ep : (pl_pos z =? pl_pos x) = false) by (apply Nat.eqb_neq; cbn; lia). rewrite Ep. cbn [option_map].
      assert (Hz : pl_rest z = skipn (run not_wd s) s) by reflexivity. assert (Lz : length (pl_rest z) <= fuel) by (rewrite Hz, skipn_length; rewrite Er in Hl; cbn in Hl; lia).
      destruct (starts_x_dec (skipn (run not_wd s) s)) as [Hs|Hs].
      * rewrite <- Hz in Hs. destruct (IH z Lz Hs) as (e & q & Ee & Ce & Le & Em). rewrite Em. rewrite Hz in Ee, Le, Hs. exists (c :: firstn (run not_wd s) s ++ e), q.
        split; [cbn; f_equal; rewrite <- app_assoc, <- Ee; symmetry; apply firstn_skipn|]. split; [apply (chain_more c _ _ _ Hc eq_refl); [apply run_take|exact Ce]|]. split; [now apply longest_next|].
        f_equal. f_equal. unfold z, adv, eat. rewrite moved_moved. unfold moved. cbn [pl_pos pl_prev pl_groups pl_rest]. cbn [app length after fold_left]. f_equal. lia.
      * rewrite more_no_chain by (rewrite Hz; exact Hs). rewrite last_x_eq, Er, Hc. exists [c], s. split; [reflexivity|]. split.
        -- split; [now exists c, []|]. split; [intros d [<-|[]]; unfold in_pii; now rewrite Hc|]. now exists [], c.
        -- split; [now apply longest_one|]. f_equal. f_equal. unfold eat, moved. cbn. f_equal. lia.
    + intros z Hz. destruct (pl_pos z =? pl_pos x); [reflexivity|]. now apply more_no_chain.
Qed.
Lemma repeat_no_chain lo x : ~ starts_x (pl_rest x) -> repeat_body true (bt sp wd dg fold false unit_re) lo None x last_x = None.
Proof.
  intros H. destruct lo as [|lo]; cbn [repeat_body]; [now apply more_no_chain|].
  unfold unit_re, X_re. rewrite bt_char_seq. destruct (pl_rest x) as [|c s]; [reflexivity|]. rewrite X_ok. destruct (x_char c) eqn:E; [|reflexivity]. destruct H. now exists c, s.
Qed.
Definition x_count (s : str) : nat := length (filter x_char s).
Lemma x_count_app a b : x_count (a ++ b) = x_count a + x_count b.
Proof. unfold x_count. now rewrite filter_app, app_length. Qed.
Lemma x_count_not_wd w : all not_wd w -> x_count w = 0.
Proof.
  induction w as [|c w IH]; intros H; [reflexivity|]. unfold x_count. cbn. destruct (x_char c) eqn:E; [|apply IH; intros z Hz; apply H; now right].
  specialize (H c (or_introl eq_refl)). rewrite not_wd_eq, (x_char_wd _ E) in H. discriminate.
Qed.
Lemma repeat_step lo x : repeat_body true (bt sp wd dg fold false unit_re) (S lo) None x last_x =
  match pl_rest x with c :: s => if x_char c then repeat_body true (bt sp wd dg fold false unit_re) lo None (adv (eat x c s) (run not_wd s)) last_x else None | [] => None end.
Proof. cbn [repeat_body option_map]. apply unit_bt. intros z Hz. now apply repeat_no_chain. Qed.
Lemma repeat_chain : forall lo x y, repeat_body true (bt sp wd dg fold false unit_re) lo None x last_x = Some y ->
  exists e q, pl_rest x = e ++ q /\ chain e /\ longest (pl_rest x) e /\ lo < x_count e /\ y = F (moved x e q []).
Proof.
  induction lo as [|lo IH]; intros x y H.
  - cbn [repeat_body] in H. destruct (starts_x_dec (pl_rest x)) as [Hs|Hs]; [|rewrite more_no_chain in H by exact Hs; discriminate].
    destruct (more_chain _ x (le_n _) Hs) as (e & q & E1 & E2 & E3 & E4). rewrite H in E4. injection E4 as ->. exists e, q. split; [exact E1|]. split; [exact E2|]. split; [exact E3|]. split; [|reflexivity].
    destruct E2 as ((c & e' & -> & Hc) & _). unfold x_count. cbn. rewrite Hc. cbn. lia.
  - rewrite repeat_step in H. destruct (pl_rest x) as [|c s] eqn:Er; [discriminate|]. destruct (x_char c) eqn:Hc; [|discriminate].
    destruct (IH _ _ H) as (e & q & E1 & E2 & E3 & E4 & ->). rewrite adv_rest in E1, E3. cbn [eat pl_rest] in E1, E3. exists (c :: firstn (run not_wd s) s ++ e), q.
    split; [cbn; f_equal; rewrite <- app_assoc, <- E1; symmetry; apply firstn_skipn|]. split; [apply (chain_more c _ _ _ Hc eq_refl); [apply run_take|exact E2]|].
    split; [apply longest_next; [|exact E3]; rewrite E1; destruct E2 as ((d & e' & -> & Hd) & _); now exists d, (e' ++ q)|].
    split; [change (x_count (c :: firstn (run not_wd s) s ++ e)) with (x_count ([c] ++ firstn (run not_wd s) s ++ e)); rewrite !x_count_app; unfold x_count at 1; cbn; rewrite Hc; cbn; lia|].
    f_equal. unfold adv, eat. rewrite moved_moved. unfold moved. cbn [pl_pos pl_prev pl_groups pl_rest]. cbn [app length after fold_left]. f_equal. lia.
Qed.
Lemma repeat_some : forall lo x e q, pl_rest x = e ++ q -> chain e -> lo < x_count e -> repeat_body true (bt sp wd dg fold false unit_re) lo None x last_x <> None.
Proof.
  induction lo as [|lo IH]; intros x e q E C H.
  - cbn [repeat_body]. destruct (more_chain _ x (le_n _)) as (e' & q' & _ & _ & _ & Em); [|rewrite Em; discriminate]. rewrite E. destruct C as ((c & e' & -> & Hc) & _). now exists c, (e' ++ q).
  - rewrite repeat_step, E. destruct C as ((c & t & -> & Hc) & C). cbn [app]. rewrite Hc. assert (Ht : t <> []) by (intros ->; unfold x_count in H; cbn in H; rewrite Hc in H; cbn in H; lia).
    destruct (chain_next c t (conj (ex_intro _ c (ex_intro _ t (conj eq_refl Hc))) C) (t ++ q) q eq_refl Ht) as (t' & Et & Es & Ct).
    apply (IH _ t' q); [rewrite adv_rest; exact Es|exact Ct|]. rewrite Et in H. change (c :: firstn (run not_wd (t ++ q)) (t ++ q) ++ t') with ([c] ++ firstn (run not_wd (t ++ q)) (t ++ q) ++ t') in H.
    rewrite !x_count_app, (x_count_not_wd (firstn _ _)) in H by apply run_take. unfold x_count at 1 in H. cbn in H. rewrite Hc in H. cbn in H. lia.
Qed.
End Chain.
Definition S_char (c : N) : bool := N.eqb c 83 || N.eqb c 44 || N.eqb c 66.
Lemma S_char_In c : S_char c = true <-> In c (u "S,B").
Proof. unfold S_char. rewrite !orb_true_iff, !N.eqb_eq. cbn. intuition. Qed.
Definition pii_valid_re : re :=
  RSeq (RBound false) (RSeq (RGroup 1 (RSeq (RChar false [ILit 83%N; ILit 44%N; ILit 66%N]) (RSeq W_re (RSeq (RRep true 15 None unit_re) (RSeq X_re REmpty))))) REmpty).
Definition pii_end (i : nat) (y : place) : place := mkPlace (pl_pos y) (pl_prev y) (pl_rest y) ((1, (i, pl_pos y)) :: pl_groups y).
Lemma pii_valid_bt x : bt sp wd dg fold false pii_valid_re x Some =
  if at_boundary wd x then
    match pl_rest x with
    | c :: s => if S_char c then repeat_body true (bt sp wd dg fold false unit_re) 15 None (adv (eat x c s) (run not_wd s)) (last_x (pii_end (pl_pos x))) else None
    | [] => None
    end
  else None.
Proof.
  unfold pii_valid_re. change (bt sp wd dg fold false (RSeq (RBound false) ?r) x Some) with (if xorb false (at_boundary wd x) then bt sp wd dg fold false r x Some else None).
  rewrite xorb_false_l. destruct (at_boundary wd x); [|reflexivity]. rewrite bt_group_seq, bt_char_seq. destruct (pl_rest x) as [|c s]; [reflexivity|].
  assert (E : char_ok sp wd dg fold false false [ILit 83%N; ILit 44%N; ILit 66%N] c = S_char c) by (unfold char_ok, S_char; cbn [existsb item_ok]; now rewrite orb_false_r, xorb_false_l, orb_assoc).
  rewrite E. destruct (S_char c); [|reflexivity]. fold (eat x c s).
  change (bt sp wd dg fold false (RSeq W_re ?r) ?x ?k) with (bt sp wd dg fold false W_re x (fun y => bt sp wd dg fold false r y k)). rewrite W_bt; [reflexivity|].
  intros z Hz. now apply (repeat_no_chain (pii_end (pl_pos x)) 15).
Qed.
Theorem C103_pii_valid : finds (find_pii_valid sp wd dg fold) pii_valid.
Proof.
  unfold find_pii_valid. set (p := compiled PII_VALID_PATTERN). vm_compute in p. subst p. apply find_by_first; cbn [pt_ic pt_re].
  - intros pr i s y H. change (bt sp wd dg fold false pii_valid_re (mkPlace i pr s []) Some = Some y) in H. rewrite pii_valid_bt in H. destruct (at_boundary wd (mkPlace i pr s [])) eqn:B; [|discriminate].
    apply at_boundary_spec in B. cbn [pl_prev pl_rest pl_pos] in B, H. destruct s as [|c s]; [discriminate|]. destruct (S_char c) eqn:Hc; [|discriminate]. apply S_char_In in Hc.
    apply repeat_chain in H as (e & q & E1 & (E2 & E3 & b & d & Eb & Hd) & E4 & E5 & ->). rewrite adv_rest in E1, E4. cbn [eat pl_rest] in E1, E4. set (w := firstn (run not_wd s) s).
    assert (Es : s = w ++ e ++ q) by (rewrite <- E1; symmetry; apply firstn_skipn).
    exists [], (c :: w ++ e), [], q. split; [cbn; f_equal; rewrite Es at 1; now rewrite <- app_assoc|]. split.
    { unfold pii_end, adv, eat. rewrite moved_moved. unfold moved. cbn [pl_pos pl_groups pl_rest]. fold w. cbn [group_in Nat.eqb length]. rewrite !app_length. f_equal. f_equal; lia. }
    assert (Hw : all in_pii w). { intros z Hz. pose proof (run_take not_wd s z Hz) as K. rewrite not_wd_eq in K. unfold in_pii. now rewrite K, orb_true_r. }
    split; [reflexivity|]. split; [exact B|]. split; [|split; [reflexivity|]].
    + exists c, (w ++ b), d. subst e. rewrite <- !app_assoc. split; [reflexivity|]. split; [exact Hc|]. split; [intros z Hz; apply in_app_or in Hz as [Hz|Hz]; [now apply Hw|now apply E3]|]. split; [exact Hd|].
      change (16 <= x_count (w ++ b ++ [d])). rewrite x_count_app. lia.
    + intros e0 q' -> He0 (c' & body & d' & E & _ & Ha & Hd' & _). cbn in E. injection E as <- E. rewrite <- app_assoc in E. assert (Ec : exists b0, e0 = b0 ++ [d']).
      { destruct e0 as [|z e0 _] using rev_ind; [contradiction|]. exists e0. rewrite !app_assoc in E. apply app_inj_tail in E as [_ ->]. reflexivity. } destruct Ec as [b0 ->].
      assert (K : length (e ++ b0 ++ [d']) <= length e).
      { apply (E4 (e ++ b0 ++ [d']) q'); [rewrite E1; now rewrite <- !app_assoc|]. split; [destruct E2 as (z & r & -> & Hz); now exists z, (r ++ b0 ++ [d'])|].
        split; [|exists (e ++ b0), d'; split; [now rewrite <- app_assoc|exact Hd']]. intros z Hz. apply Ha. rewrite <- E. apply in_or_app. now right. }
      rewrite !app_length in K. cbn in K. lia.
  - intros pr i pre id post q (-> & B & (c & body & d & -> & Hc & Ha & Hd & Hn) & -> & _). cbn [app].
    assert (K : bt sp wd dg fold false pii_valid_re (mkPlace i pr (c :: (body ++ [d]) ++ q) []) Some <> None).
    { rewrite pii_valid_bt. assert (B' : at_boundary wd (mkPlace i pr (c :: (body ++ [d]) ++ q) []) = true) by (apply at_boundary_spec; exact B). rewrite B'. cbn [pl_rest pl_pos]. rewrite (proj2 (S_char_In c) Hc).
      destruct (chain_tail (body ++ [d]) body d Ha eq_refl Hd ((body ++ [d]) ++ q) q eq_refl) as (t' & Et & Es & Ct). apply (repeat_some _ 15 _ t' q); [rewrite adv_rest; exact Es|exact Ct|].
      change (16 <= x_count (body ++ [d])) in Hn. rewrite Et, x_count_app, x_count_not_wd in Hn by apply run_take. lia. }
    destruct (bt sp wd dg fold false pii_valid_re (mkPlace i pr (c :: (body ++ [d]) ++ q) []) Some) as [y|] eqn:Eb; [|contradiction].
    apply bt_some in Eb as (w & q' & g & E & R & _). cbn [pl_rest pl_prev pl_pos] in E, R. exists w, q', g. split; [exact E|exact R].
Qed.

(* ------------------------------------------------------------------ *)
(** ** The address in front of DOIs *)
Definition http_part (h : str) : Prop :=
  h = [] \/ exists s0 s1 s2 s3 s4, h = u "http" ++ s0 ++ s1 ++ u ":" ++ s2 ++ u "/" ++ s3 ++ u "/" ++ s4 /\ (s0 = [] \/ s0 = u "s") /\ all sp s1 /\ all sp s2 /\ all sp s3 /\ all sp s4.
Definition letter (c : N) : bool := N.leb 97 c && N.leb c 122.
Definition host_part (h : str) : Prop :=
  h = [] \/ exists l s1 s2, h = l ++ s1 ++ u "." ++ s2 /\ all letter l /\ l <> [] /\ all sp s1 /\ all sp s2.
(** between "doi" and "org" there can be any character but a newline *)
Definition doi_url_prefix : description := fun p pre id post q =>
  pre = [] /\ post = [] /\ (forall c, hd_error q = Some c -> sp c = false) /\
  exists h1 h2 s1 c s2 s3 s4, id = h1 ++ h2 ++ u "doi" ++ s1 ++ [c] ++ s2 ++ u "org" ++ s3 ++ u "/" ++ s4 /\
    http_part h1 /\ host_part h2 /\ c <> 10%N /\ all sp s1 /\ all sp s2 /\ all sp s3 /\ all sp s4.
Lemma bt_seq_some ic a b x k y : bt sp wd dg fold ic (RSeq a b) x k = Some y ->
  exists w q g, pl_rest x = w ++ q /\ reads ic a (pl_prev x) (pl_pos x) w q g /\ bt sp wd dg fold ic b (moved x w q g) k = Some y.
Proof. cbn [bt]. apply bt_some. Qed.
Definition sps_re : re := RRep true 0 None (RChar false [IKind KSpace false]).
Lemma sps_reads p i w q g : reads false sps_re p i w q g <-> g = [] /\ all sp w.
Proof.
  unfold sps_re. rewrite reads_run by exact I. rewrite run_kind. intuition lia.
Qed.
Definition http_re : re :=
  RSeq (RChar false [ILit 104%N]) (RSeq (RChar false [ILit 116%N]) (RSeq (RChar false [ILit 116%N]) (RSeq (RChar false [ILit 112%N])
    (RSeq (RRep true 0 (Some 1) (RChar false [ILit 115%N])) (RSeq sps_re (RSeq (RChar false [ILit 58%N]) (RSeq sps_re (RSeq (RChar false [ILit 47%N]) (RSeq sps_re (RSeq (RChar false [ILit 47%N]) (RSeq sps_re REmpty))))))))))).
Definition host_re : re := RSeq (RRep true 1 None (RChar false [IRange 97%N 122%N])) (RSeq sps_re (RSeq (RChar false [ILit 46%N]) (RSeq sps_re REmpty))).
Lemma http_reads p i w q g : reads false (RRep true 0 (Some 1) http_re) p i w q g <-> g = [] /\ http_part w.
Proof.
  unfold http_re. split.
  - intros R. apply reads_opt in R as [[-> ->]|[_ R]]; [split; [reflexivity|now left]|].
    apply reads_seq in R as (w1 & v1 & g1 & k1 & -> & -> & R1 & R). apply reads_lit in R1 as [-> ->].
    apply reads_seq in R as (w2 & v2 & g2 & k2 & -> & -> & R1 & R). apply reads_lit in R1 as [-> ->].
    apply reads_seq in R as (w3 & v3 & g3 & k3 & -> & -> & R1 & R). apply reads_lit in R1 as [-> ->].
    apply reads_seq in R as (w4 & v4 & g4 & k4 & -> & -> & R1 & R). apply reads_lit in R1 as [-> ->].
    apply reads_seq in R as (s0 & v5 & g5 & k5 & -> & -> & R0 & R).
    apply reads_seq in R as (s1 & v6 & g6 & k6 & -> & -> & R1 & R). apply sps_reads in R1 as [-> H1].
    apply reads_seq in R as (w7 & v7 & g7 & k7 & -> & -> & R1 & R). apply reads_lit in R1 as [-> ->].
    apply reads_seq in R as (s2 & v8 & g8 & k8 & -> & -> & R1 & R). apply sps_reads in R1 as [-> H2].
    apply reads_seq in R as (w9 & v9 & g9 & k9 & -> & -> & R1 & R). apply reads_lit in R1 as [-> ->].
    apply reads_seq in R as (s3 & v10 & g10 & k10 & -> & -> & R1 & R). apply sps_reads in R1 as [-> H3].
    apply reads_seq in R as (w11 & v11 & g11 & k11 & -> & -> & R1 & R). apply reads_lit in R1 as [-> ->].
    apply reads_seq in R as (s4 & v12 & g12 & k12 & -> & -> & R1 & R). apply sps_reads in R1 as [-> H4].
    apply reads_empty in R as [-> ->]. apply reads_opt in R0 as [[-> ->]|[_ R0]].
    + split; [reflexivity|]. right. exists [], s1, s2, s3, s4. rewrite app_nil_r. split; [reflexivity|]. auto.
    + apply reads_lit in R0 as [-> ->]. split; [reflexivity|]. right. exists (u "s"), s1, s2, s3, s4. rewrite app_nil_r. split; [reflexivity|]. auto.
  - intros [-> [->|(s0 & s1 & s2 & s3 & s4 & -> & H0 & H1 & H2 & H3 & H4)]]; [constructor|]. apply mk_opt; [discriminate|].
    assert (R0 : forall p' i' q', exists g, g = [] /\ reads false (RRep true 0 (Some 1) (RChar false [ILit 115%N])) p' i' s0 q' g).
    { intros p' i' q'. exists []. split; [reflexivity|]. destruct H0 as [->| ->]; [constructor|]. apply mk_opt; [discriminate|]. apply mk_lit. }
    change (u "http" ++ ?r) with ([104%N] ++ [116%N] ++ [116%N] ++ [112%N] ++ r). change (u ":") with [58%N]. change (u "/") with [47%N].
    eapply reads_eq; [|].
    { rlit 104%N ([116%N] ++ [116%N] ++ [112%N] ++ s0 ++ s1 ++ [58%N] ++ s2 ++ [47%N] ++ s3 ++ [47%N] ++ s4). rlit 116%N ([116%N] ++ [112%N] ++ s0 ++ s1 ++ [58%N] ++ s2 ++ [47%N] ++ s3 ++ [47%N] ++ s4).
      rlit 116%N ([112%N] ++ s0 ++ s1 ++ [58%N] ++ s2 ++ [47%N] ++ s3 ++ [47%N] ++ s4). rlit 112%N (s0 ++ s1 ++ [58%N] ++ s2 ++ [47%N] ++ s3 ++ [47%N] ++ s4).
      eapply (mk_seq _ _ _ _ _ _ _ _ _ s0 (s1 ++ [58%N] ++ s2 ++ [47%N] ++ s3 ++ [47%N] ++ s4) _ _ []); [reflexivity|reflexivity|destruct H0 as [->| ->]; [constructor|]; apply mk_opt; [discriminate|]; apply mk_lit|].
      rseq s1 ([58%N] ++ s2 ++ [47%N] ++ s3 ++ [47%N] ++ s4); [apply sps_reads; split; [reflexivity|exact H1]|]. rlit 58%N (s2 ++ [47%N] ++ s3 ++ [47%N] ++ s4).
      rseq s2 ([47%N] ++ s3 ++ [47%N] ++ s4); [apply sps_reads; split; [reflexivity|exact H2]|]. rlit 47%N (s3 ++ [47%N] ++ s4). rseq s3 ([47%N] ++ s4); [apply sps_reads; split; [reflexivity|exact H3]|]. rlit 47%N s4.
      rseq s4 (@nil N); [apply sps_reads; split; [reflexivity|exact H4]|]. constructor. }
    reflexivity.
Qed.
Lemma letters_set l : Forall (in_set sp wd dg fold false false [IRange 97%N 122%N]) l <-> all letter l.
Proof.
  rewrite Forall_forall. unfold all. split; intros H c Hc; specialize (H c Hc).
  - apply char_ok_spec in H. unfold char_ok in H. cbn [existsb item_ok] in H. unfold letter. rewrite !orb_false_r, xorb_false_l in H. exact H.
  - apply char_ok_spec. unfold char_ok. cbn [existsb item_ok]. unfold letter in H. rewrite !orb_false_r, xorb_false_l. exact H.
Qed.
Lemma host_reads p i w q g : reads false (RRep true 0 (Some 1) host_re) p i w q g <-> g = [] /\ host_part w.
Proof.
  unfold host_re. split.
  - intros R. apply reads_opt in R as [[-> ->]|[_ R]]; [split; [reflexivity|now left]|].
    apply reads_seq in R as (l & v1 & g1 & k1 & -> & -> & R1 & R). apply reads_run in R1 as (-> & Hl & Ll & _); [|exact I]. apply letters_set in Hl.
    apply reads_seq in R as (s1 & v6 & g6 & k6 & -> & -> & R1 & R). apply sps_reads in R1 as [-> H1].
    apply reads_seq in R as (w7 & v7 & g7 & k7 & -> & -> & R1 & R). apply reads_lit in R1 as [-> ->].
    apply reads_seq in R as (s2 & v8 & g8 & k8 & -> & -> & R1 & R). apply sps_reads in R1 as [-> H2].
    apply reads_empty in R as [-> ->]. split; [reflexivity|]. right. exists l, s1, s2. rewrite app_nil_r. split; [reflexivity|]. split; [exact Hl|]. split; [intros ->; cbn in Ll; lia|]. auto.
  - intros [-> [->|(l & s1 & s2 & -> & Hl & Hn & H1 & H2)]]; [constructor|]. apply mk_opt; [destruct l; [contradiction|discriminate]|]. eapply reads_eq; [|].
    { rrun l (s1 ++ u "." ++ s2); [now apply letters_set|destruct l; [contradiction|cbn; lia]|].
      rseq s1 (u "." ++ s2); [apply sps_reads; split; [reflexivity|exact H1]|]. rlit 46%N s2. rseq s2 (@nil N); [apply sps_reads; split; [reflexivity|exact H2]|]. constructor. }
    reflexivity.
Qed.
Lemma any_reads p i w q g : reads false (RChar true [ILit 10%N]) p i w q g <-> g = [] /\ exists c, w = [c] /\ c <> 10%N.
Proof.
  rewrite reads_char. split.
  - intros (c & -> & -> & H). apply in_any in H. cbn in H. eauto.
  - intros (-> & c & -> & H). exists c. repeat split. apply in_any. exact H.
Qed.
Theorem C103_doi_url_prefix : finds (find_doi_url_prefix sp wd dg fold) doi_url_prefix.
Proof.
  unfold find_doi_url_prefix. set (p := compiled DOI_URL_PREFIX_PATTERN). vm_compute in p. subst p. apply find_by_first; cbn [pt_ic pt_re].
  - intros pr i s y H. rewrite bt_group_seq in H.
    apply bt_seq_some in H as (h1 & q1 & g1 & E1 & R1 & H). cbn [pl_rest pl_prev pl_pos] in E1, R1. apply (proj1 (http_reads _ _ _ _ _)) in R1 as [-> A1].
    apply bt_seq_some in H as (h2 & q2 & g2 & E2 & R2 & H). cbn [pl_rest pl_prev pl_pos moved] in E2. apply (proj1 (host_reads _ _ _ _ _)) in R2 as [-> A2].
    apply bt_seq_some in H as (w3 & q3 & g3 & E3 & R3 & H). apply reads_lit in R3 as [-> ->]. apply bt_seq_some in H as (w4 & q4 & g4 & E4 & R4 & H). apply reads_lit in R4 as [-> ->].
    apply bt_seq_some in H as (w5 & q5 & g5 & E5 & R5 & H). apply reads_lit in R5 as [-> ->]. apply bt_seq_some in H as (s1 & q6 & g6 & E6 & R6 & H). apply sps_reads in R6 as [-> A6].
    apply bt_seq_some in H as (w7 & q7 & g7 & E7 & R7 & H). apply any_reads in R7 as (-> & c & -> & A7). apply bt_seq_some in H as (s2 & q8 & g8 & E8 & R8 & H). apply sps_reads in R8 as [-> A8].
    apply bt_seq_some in H as (w9 & q9 & g9 & E9 & R9 & H). apply reads_lit in R9 as [-> ->]. apply bt_seq_some in H as (w10 & q10 & g10 & E10 & R10 & H). apply reads_lit in R10 as [-> ->].
    apply bt_seq_some in H as (w11 & q11 & g11 & E11 & R11 & H). apply reads_lit in R11 as [-> ->].
    apply bt_seq_some in H as (s3 & q12 & g12 & E12 & R12 & H). apply sps_reads in R12 as [-> A12]. apply bt_seq_some in H as (w13 & q13 & g13 & E13 & R13 & H). apply reads_lit in R13 as [-> ->].
    cbn [pl_rest moved] in E3, E4, E5, E6, E7, E8, E9, E10, E11, E12, E13.
    rewrite bt_seq_empty, bt_run_greedy in H; [|lia|discriminate]. cbn [pl_rest moved] in H. set (f := char_ok sp wd dg fold false false [IKind KSpace false]) in *. set (s4 := firstn (run f q13) q13). injection H as <-.
    exists [], (h1 ++ h2 ++ u "doi" ++ s1 ++ [c] ++ s2 ++ u "org" ++ s3 ++ u "/" ++ s4), [], (skipn (run f q13) q13).
    assert (E14 : q13 = s4 ++ skipn (run f q13) q13) by (symmetry; apply firstn_skipn). split; [|split; [|split; [reflexivity|split; [reflexivity|split]]]].
    + subst s q1 q2 q3 q4 q5 q6 q7 q8 q9 q10 q11 q12. rewrite E14 at 1. cbn [app]. repeat (rewrite <- ?app_assoc; cbn [app]). reflexivity.
    + cbn [pl_groups pl_pos group_in Nat.eqb adv moved pl_rest]. fold s4. f_equal. f_equal; [cbn; lia|]. cbn [length]. rewrite !app_length. cbn. lia.
    + intros d Hd. destruct (skipn (run f q13) q13) as [|d' r] eqn:Eq; [discriminate|]. injection Hd as ->. apply run_stop in Eq. unfold f in Eq. now rewrite char_ok_kind in Eq.
    + exists h1, h2, s1, c, s2, s3, s4. repeat (split; [first [reflexivity|assumption]|]). intros d Hd. pose proof (run_take f q13 d Hd) as K. unfold f in K. now rewrite char_ok_kind in K.
  - intros pr i pre id post q (-> & -> & _ & h1 & h2 & s1 & c & s2 & s3 & s4 & -> & A1 & A2 & A7 & A6 & A8 & A12 & A14). cbn [app].
    exists (h1 ++ h2 ++ u "doi" ++ s1 ++ [c] ++ s2 ++ u "org" ++ s3 ++ u "/" ++ s4), q. eexists. split; [reflexivity|].
    rseq (h1 ++ h2 ++ u "doi" ++ s1 ++ [c] ++ s2 ++ u "org" ++ s3 ++ u "/" ++ s4) (@nil N); [|constructor]. constructor.
    rseq h1 (h2 ++ u "doi" ++ s1 ++ [c] ++ s2 ++ u "org" ++ s3 ++ u "/" ++ s4); [apply http_reads; split; [reflexivity|exact A1]|]. rseq h2 (u "doi" ++ s1 ++ [c] ++ s2 ++ u "org" ++ s3 ++ u "/" ++ s4); [apply host_reads; split; [reflexivity|exact A2]|].
    rlit 100%N (u "oi" ++ s1 ++ [c] ++ s2 ++ u "org" ++ s3 ++ u "/" ++ s4). rlit 111%N (u "i" ++ s1 ++ [c] ++ s2 ++ u "org" ++ s3 ++ u "/" ++ s4). rlit 105%N (s1 ++ [c] ++ s2 ++ u "org" ++ s3 ++ u "/" ++ s4).
    rseq s1 ([c] ++ s2 ++ u "org" ++ s3 ++ u "/" ++ s4); [apply sps_reads; split; [reflexivity|exact A6]|]. rseq [c] (s2 ++ u "org" ++ s3 ++ u "/" ++ s4); [apply any_reads; split; [reflexivity|eauto]|].
    rseq s2 (u "org" ++ s3 ++ u "/" ++ s4); [apply sps_reads; split; [reflexivity|exact A8]|]. rlit 111%N (u "rg" ++ s3 ++ u "/" ++ s4). rlit 114%N (u "g" ++ s3 ++ u "/" ++ s4). rlit 103%N (s3 ++ u "/" ++ s4).
    rseq s3 (u "/" ++ s4); [apply sps_reads; split; [reflexivity|exact A12]|]. rlit 47%N s4. rseq s4 (@nil N); [apply sps_reads; split; [reflexivity|exact A14]|]. constructor.
Qed.

(* ------------------------------------------------------------------ *)
(** ** A DOI in brackets at the end of a link *)
Definition is_doi (d : str) : Prop := exists h t, d = h ++ t /\ doi_head dg h /\ t <> [] /\ ~ In 10%N t.
Definition bracketed (text a d q : str) : Prop := text = a ++ u "[" ++ d ++ u "]" ++ q /\ ~ In 10%N a /\ is_doi d.
Definition PART_re : re := RSeq (RChar false [ILit 46%N]) (RSeq (RRep true 1 None (RChar false [IKind KDigit false])) REmpty).
Definition DOI3_re : re :=
  RSeq (RChar false [ILit 49%N]) (RSeq (RChar false [ILit 48%N]) (RSeq (RChar false [ILit 46%N]) (RSeq (RRep true 4 None (RChar false [IKind KDigit false]))
    (RSeq (RRep true 0 None PART_re) (RSeq (RChar false [ILit 47%N]) (RSeq (RRep true 1 None (RChar true [ILit 10%N])) REmpty)))))).
Definition BRACKET_re : re :=
  RSeq (RGroup 2 (RSeq (RChar false [ILit 91%N]) (RSeq (RBound false) (RSeq (RGroup 3 DOI3_re) (RSeq (RChar false [ILit 93%N]) REmpty))))) REmpty.
Lemma digits_number w lo : 1 <= lo -> Forall (in_set sp wd dg fold false false [IKind KDigit false]) w /\ lo <= length w <-> PropJatsText.number dg w /\ lo <= length w.
Proof.
  intros Hlo. rewrite run_kind. unfold PropJatsText.number. rewrite forallb_forall. unfold all. split; [intros [H L]; repeat split; auto; intros ->; cbn in L; lia|]. now intros [[_ H] L].
Qed.
Lemma part_reads p i w q g : reads false PART_re p i w q g <-> g = [] /\ exists ds, w = 46%N :: ds /\ PropJatsText.number dg ds.
Proof.
  unfold PART_re. split.
  - intros R. apply reads_seq in R as (w1 & v1 & g1 & k1 & -> & -> & R1 & R). apply reads_lit in R1 as [-> ->]. apply reads_seq in R as (ds & v2 & g2 & k2 & -> & -> & R1 & R).
    apply reads_empty in R as [-> ->]. apply reads_run in R1 as (-> & H & L & _); [|exact I]. split; [reflexivity|]. exists ds. rewrite app_nil_r. split; [reflexivity|]. now apply (digits_number ds 1).
  - intros (-> & ds & -> & Hd). assert (L : 1 <= length ds) by (destruct Hd as [Hn _]; destruct ds; [contradiction|cbn; lia]). eapply reads_eq; [|].
    { rlit 46%N ds. rrun ds (@nil N); [now apply (digits_number ds 1)|]. constructor. } reflexivity.
Qed.
Lemma parts_reads p i w q g : reads false (RRep true 0 None PART_re) p i w q g <-> g = [] /\ exists parts, w = flat_map (fun ds => 46%N :: ds) parts /\ Forall (PropJatsText.number dg) parts.
Proof.
  split.
  - intros R. remember (RRep true 0 None PART_re) as r eqn:Er. induction R; try discriminate.
    + split; [reflexivity|]. exists []. split; [reflexivity|constructor].
    + injection Er as -> -> -> ->. apply part_reads in R1 as (-> & ds & -> & Hd). destruct (IHR2 eq_refl) as (-> & parts & -> & Hp). split; [reflexivity|]. exists (ds :: parts). split; [reflexivity|now constructor].
  - intros (-> & parts & -> & Hp). revert p i. induction Hp as [|ds parts Hd Hp IH]; intros p i; cbn [flat_map]; [constructor|].
    change (@nil (nat * (nat * nat))) with (@nil (nat * (nat * nat)) ++ []). apply rd_more; [intros _; split; discriminate|apply part_reads; split; [reflexivity|eauto]|apply IH].
Qed.
Lemma line_reads p i w q g : reads false (RRep true 1 None (RChar true [ILit 10%N])) p i w q g <-> g = [] /\ w <> [] /\ ~ In 10%N w.
Proof.
  rewrite reads_run by exact I. rewrite Forall_forall. split.
  - intros (-> & H & L & _). split; [reflexivity|]. split; [intros ->; cbn in L; lia|]. intros K. specialize (H _ K). apply in_any in H. now apply H.
  - intros (-> & Hn & Hl). split; [reflexivity|]. split; [|split; [destruct w; [contradiction|cbn; lia]|exact I]]. intros c Hc. apply in_any. cbn. intros ->. contradiction.
Qed.
Lemma doi3_reads p i w q g : reads false DOI3_re p i w q g <-> g = [] /\ is_doi w.
Proof.
  unfold DOI3_re. split.
  - intros R. apply reads_seq in R as (w1 & v1 & g1 & k1 & -> & -> & R1 & R). apply reads_lit in R1 as [-> ->]. apply reads_seq in R as (w2 & v2 & g2 & k2 & -> & -> & R1 & R). apply reads_lit in R1 as [-> ->].
    apply reads_seq in R as (w3 & v3 & g3 & k3 & -> & -> & R1 & R). apply reads_lit in R1 as [-> ->]. apply reads_seq in R as (ds & v4 & g4 & k4 & -> & -> & R1 & R). apply reads_run in R1 as (-> & H & L & _); [|exact I].
    apply reads_seq in R as (pa & v5 & g5 & k5 & -> & -> & R1 & R). apply parts_reads in R1 as (-> & parts & -> & Hp). apply reads_seq in R as (w6 & v6 & g6 & k6 & -> & -> & R1 & R). apply reads_lit in R1 as [-> ->].
    apply reads_seq in R as (t & v7 & g7 & k7 & -> & -> & R1 & R). apply line_reads in R1 as (-> & Ht & Hl). apply reads_empty in R as [-> ->]. split; [reflexivity|].
    destruct (proj1 (digits_number ds 4 ltac:(lia)) (conj H L)) as [Hd _].
    exists (u "10." ++ ds ++ flat_map (fun g => 46%N :: g) parts ++ [47%N]), t. split; [rewrite <- !app_assoc, ?app_nil_r; reflexivity|]. split; [exists ds, parts; auto|]. auto.
  - intros (-> & h & t & -> & (ds & parts & -> & Hd & L & Hp) & Ht & Hl). eapply reads_eq; [|].
    { set (pa := flat_map (fun g => 46%N :: g) parts). rlit 49%N (u "0." ++ ds ++ pa ++ [47%N] ++ t). rlit 48%N (u "." ++ ds ++ pa ++ [47%N] ++ t). rlit 46%N (ds ++ pa ++ [47%N] ++ t).
      rrun ds (pa ++ [47%N] ++ t); [now apply (digits_number ds 4 ltac:(lia))|]. rseq pa ([47%N] ++ t); [apply parts_reads; split; [reflexivity|exists parts; split; [reflexivity|exact Hp]]|]. rlit 47%N t.
      rseq t (@nil N); [apply line_reads; split; [reflexivity|auto]|]. constructor. }
    reflexivity.
Qed.
Lemma doi_hd d : is_doi d -> exists d', d = 49%N :: d'.
Proof. intros (h & t & -> & (ds & parts & -> & _) & _). eexists. reflexivity. Qed.
Lemma bracket_reads p i w q g : reads false BRACKET_re p i w q g ->
  exists d, w = u "[" ++ d ++ u "]" /\ is_doi d /\ group_in 2 g = Some (i, i + length w).
Proof.
  intros R. unfold BRACKET_re in R. apply reads_seq in R as (w1 & v1 & g1 & k1 & -> & -> & R1 & R). apply reads_empty in R as [-> ->]. apply reads_group in R1 as (g' & -> & R). rewrite app_nil_r.
  cbn [app group_in Nat.eqb]. apply reads_seq in R as (w2 & v2 & g2 & k2 & -> & -> & R1 & R). apply reads_lit in R1 as [-> ->]. apply reads_seq in R as (w3 & v3 & g3 & k3 & -> & -> & R1 & R). apply reads_bound in R1 as (-> & -> & _).
  apply reads_seq in R as (d & v4 & g4 & k4 & -> & -> & R1 & R). apply reads_group in R1 as (g'' & -> & R1). apply doi3_reads in R1 as [-> Hd]. apply reads_seq in R as (w5 & v5 & g5 & k5 & -> & -> & R1 & R). apply reads_lit in R1 as [-> ->]. apply reads_empty in R as [-> ->].
  exists d. split; [reflexivity|]. split; [exact Hd|reflexivity].
Qed.
Lemma bracket_made p i d q : is_doi d -> exists g, reads false BRACKET_re p i (u "[" ++ d ++ u "]") q g.
Proof.
  intros Hd. eexists. unfold BRACKET_re. rseq (u "[" ++ d ++ u "]") (@nil N); [|constructor]. constructor. rlit 91%N (d ++ u "]"). rseq (@nil N) (d ++ u "]").
  - constructor. destruct (doi_hd d Hd) as [d' ->]. unfold PropRegex.boundary. intros [_ K]. destruct K as (x & E & Ex); [exists 49%N; split; [reflexivity|apply (x_wd Hu); cbn; tauto]|].
    cbn in E. injection E as <-. rewrite (plain_wd Hu) in Ex; [discriminate|cbn; tauto].
  - rseq d (u "]"); [constructor; apply doi3_reads; split; [reflexivity|exact Hd]|]. rlit 93%N (@nil N). constructor.
Qed.
Theorem C103_repeated_doi text :
  match repeated_doi sp wd dg fold text with
  | Some i => exists a d q, bracketed text a d q /\ i = length a /\ forall a' d' q', bracketed text a' d' q' -> length a' <= length a
  | None => forall a d q, ~ bracketed text a d q
  end.
Proof.
  unfold repeated_doi. set (p := compiled REPEATED_DOI_PATTERN). vm_compute in p. subst p. unfold re_match, match_here. cbn [pt_ic pt_re andb].
  set (f := char_ok sp wd dg fold false true [ILit 10%N]). set (x := mkPlace 0 None text []).
  assert (Hf : forall c, f c = true <-> c <> 10%N).
  { intros c. unfold f. rewrite char_ok_spec, in_any. reflexivity. }
  match goal with |- context [bt sp wd dg fold false ?r x ?k] => change r with (RSeq (RGroup 1 (RSeq (RRep true 0 None (RChar true [ILit 10%N])) REmpty)) BRACKET_re) end.
  rewrite bt_group_seq, bt_seq_empty. cbn [pl_pos x].
  assert (Hr : forall (a d q : str), ~ In 10%N a -> length a <= run f (a ++ d ++ q)). { intros a d q Ha. apply run_ge. intros c Hc. apply Hf. intros ->. contradiction. }
  assert (Hs : forall (a r : str), skipn (length a) (a ++ r) = r). { intros a r. now rewrite skipn_app, skipn_all, Nat.sub_diag. }
  destruct (bt sp wd dg fold false (RRep true 0 None (RChar true [ILit 10%N])) x _) as [y|] eqn:Eb.
  - apply bt_run_longest in Eb as (n & Hn & Hk & Hl). fold f in Hn, Hl. pose proof (run_le f text) as Lr. cbn [pl_rest x] in Hn, Hl. apply bt_some in Hk as (w & q & g & E & R & Hy). injection Hy as <-.
    apply bracket_reads in R as (d & -> & Hd & G). cbn [pl_rest adv moved x] in E. assert (Ln : length (firstn n text) = n) by (rewrite firstn_length; lia).
    change (group 2 _) with (group_in 2 (g ++ (1, (0, 0 + length (firstn n text))) :: [])).
    assert (Gi : forall n g g' se, group_in n g = Some se -> group_in n (g ++ g') = Some se). { intros m g0. induction g0 as [|[k' se'] g0 IH]; intros g' se; cbn; [discriminate|]. destruct (m =? k'); [auto|apply IH]. }
    rewrite (Gi _ _ _ _ G). cbn [option_map fst pl_pos adv moved x plus]. change (pl_rest x) with text. exists (firstn n text), d, q. split; [|split; [reflexivity|]].
    + split; [rewrite <- (firstn_skipn n text) at 1; rewrite E; now rewrite <- !app_assoc|]. split; [|exact Hd]. intros K.
      assert (K' : In 10%N (firstn (run f text) text)) by (replace n with (Nat.min n (run f text)) in K by lia; rewrite <- firstn_firstn in K; rewrite <- (firstn_skipn n (firstn _ _)); apply in_or_app; now left).
      pose proof (run_take f text _ K') as K2. now apply Hf in K2.
    + intros a' d' q' (Et & Ha & Hd'). rewrite Ln. destruct (Nat.le_gt_cases (length a') n) as [|Hgt]; [assumption|exfalso].
      assert (La : length a' <= run f text) by (rewrite Et; apply Hr, Ha).
      specialize (Hl (length a') ltac:(lia)). destruct (bracket_made (pl_prev (adv x (length a'))) (pl_pos (adv x (length a'))) d' q' Hd') as [g' R'].
      assert (Er : pl_rest (adv x (length a')) = (u "[" ++ d' ++ u "]") ++ q') by (rewrite adv_rest; cbn [pl_rest x]; rewrite Et, Hs, <- !app_assoc; reflexivity).
      pose proof (bt_none _ _ _ _ _ _ g' Hl Er R') as K. discriminate K.
  - intros a d q (Et & Ha & Hd). assert (La : length a <= run f text) by (rewrite Et; apply Hr, Ha).
    rewrite bt_ways, ways_run in Eb by exact I. rewrite first_some_map in Eb. rewrite first_some_none in Eb. specialize (Eb (length a)). fold f in Eb. cbn [pl_rest x capped] in Eb.
    assert (Hi : In (length a) (counts true 0 (run f text))) by (unfold counts; apply in_rev; rewrite rev_involutive; apply in_seq; lia). specialize (Eb Hi).
    destruct (bracket_made (pl_prev (adv x (length a))) (pl_pos (adv x (length a))) d q Hd) as [g' R'].
    assert (Er : pl_rest (adv x (length a)) = (u "[" ++ d ++ u "]") ++ q) by (rewrite adv_rest; cbn [pl_rest x]; rewrite Et, Hs, <- !app_assoc; reflexivity).
      pose proof (bt_none _ _ _ _ _ _ g' Eb Er R') as K. discriminate K.
Qed.
End Finders.

(* ------------------------------------------------------------------ *)
(** ** Examples *)
Definition lower_ascii (c : N) : N := if (65 <=? c)%N && (c <=? 90)%N then (c + 32)%N else c.
Lemma usual_ascii : usual ascii_space ascii_word ascii_digit lower_ascii.
Proof.
  constructor.
  - intros c H. unfold ascii_word. now rewrite H, ?orb_true_r.
  - intros c H. unfold ascii_space in H. rewrite orb_true_iff, andb_true_iff, N.eqb_eq, !N.leb_le in H.
    unfold ascii_word, ascii_alpha, ascii_upper, ascii_lower, ascii_digit. rewrite !orb_false_iff, !andb_false_iff, !N.leb_gt, N.eqb_neq. lia.
  - intros c H. cbn in H. repeat destruct H as [<-|H]; try reflexivity. contradiction.
  - intros c H. cbn in H. repeat destruct H as [<-|H]; try reflexivity. contradiction.
  - intros c. unfold lower_ascii at 2. cbn. unfold lower_ascii. destruct ((65 <=? c)%N && (c <=? 90)%N) eqn:E; [|auto].
    rewrite andb_true_iff, !N.leb_le in E. lia.
Qed.
Notation a_finder f := (f ascii_space ascii_word ascii_digit lower_ascii).
Example C103_pmid_example : a_finder find_pmid (u "x PMID : 123. PMID:4") = Some (9, 12) /\ a_finder find_pmid (u "PMID:12345678901") = None.
Proof. vm_compute. auto. Qed.
Example C103_pmid_fix_example : a_finder find_pmid_fix (u "a12 34") = Some (4, 6) /\ a_finder find_pmid_fix (u "PMID: 77x 8") = Some (10, 11).
Proof. vm_compute. auto. Qed.
Example C103_wos_example : a_finder find_wos (u "wos:000123456789012") = Some (4, 19) /\ a_finder find_wos (u "WOS:00012345678901") = None.
Proof. vm_compute. auto. Qed.
Example C103_pmcid_example : a_finder find_pmcid (u "see pmc123a PMC4") = Some (4, 10) /\ a_finder find_pmcid (u "PMC") = None.
Proof. vm_compute. auto. Qed.
Example C103_pii_other_example : a_finder find_pii_other (u "doi:10.1/ab [pii]") = Some (4, 11) /\ a_finder find_pii_other (u "doi:abc [pii]") = Some (0, 7).
Proof. vm_compute. auto. Qed.
Example C103_pii_valid_example :
  a_finder find_pii_valid (u "PII S0140-6736(20)30183-5 in") = Some (4, 25) /\ a_finder find_pii_valid (u "S123") = None.
Proof. vm_compute. auto. Qed.
Example C103_doi_url_prefix_example : a_finder find_doi_url_prefix (u "at https://dx.doi.org/10.1") = Some (3, 22) /\ a_finder find_doi_url_prefix (u "doi:10.1") = None.
Proof. vm_compute. auto. Qed.
Example C103_repeated_doi_example :
  a_finder repeated_doi (u "https://doi.org/10.1234/a[10.1234/a]") = Some 25 /\ a_finder repeated_doi (u "https://doi.org/10.1234/a") = None.
Proof. vm_compute. auto. Qed.

(** *** What does not hold *)
(** a PII starts with a letter: the set of the pattern has a comma as well *)
Theorem C103_pii_letter_refuted : exists text i j, a_finder find_pii_valid text = Some (i, j) /\
  nth_error text i <> Some 83%N /\ nth_error text i <> Some 66%N.
Proof. exists (u "page1,1234567890123456"), 5, 22. vm_compute. repeat split; discriminate. Qed.
(** a PII has no white space: the separators of the pattern are all that is not part of a word *)
Theorem C103_pii_space_refuted : exists text i j k, a_finder find_pii_valid text = Some (i, j) /\ i < k < j /\ nth_error text k = Some 32%N.
Proof. exists (u "S1234567890123456, 17, 18 (2001)"), 0, 31, 18. vm_compute. repeat split; lia. Qed.
(** only addresses at doi.org are found: the dot of the pattern is any character *)
Theorem C103_doi_dot_refuted : exists text i j, a_finder find_doi_url_prefix text = Some (i, j) /\ ~ In 46%N text.
Proof. exists (u "doixorg/10"), 0, 8. vm_compute. split; [reflexivity|]. intros H. repeat destruct H as [H|H]; try discriminate H. exact H. Qed.

Print Assumptions C103_pmid.
Print Assumptions C103_pmid_fix.
Print Assumptions C103_wos.
Print Assumptions C103_pmcid.
Print Assumptions C103_pii_other.
Print Assumptions C103_pii_valid.
Print Assumptions C103_doi_url_prefix.
Print Assumptions C103_repeated_doi.
Print Assumptions C103_pii_letter_refuted.
Print Assumptions C103_pii_space_refuted.
Print Assumptions C103_doi_dot_refuted.
