(** C106: the prefixes found with the patterns of the code and of the shipped configuration. *)
From Verif Require Import Base ModelJatsText ModelJoined ModelTarget ModelSimpleMatch ModelReference ModelCommands ModelTagConfigs ModelRegex ModelPrefixes
  ModelMapping ModelTei ModelTeiDoc ModelTags PropTagConfigs PropShipped PropSimpleMatch SpecTeiWrite PropExtend PropReference PropNames PropRegex PropRegexRun PropRegexParse.
Open Scope list_scope.
Open Scope nat_scope.

(* ------------------------------------------------------------------ *)
(** ** What a prefix is *)
Section Spec.
Variables sp wd : N -> bool.
Variable fold : N -> N.
Definition letter (c : N) : Prop := (97 <= c <= 122 \/ 65 <= c <= 90)%N.
Definition spaces (s : str) : Prop := forall c, In c s -> sp c = true.
(** nothing, or a line feed *)
Definition ended (s : str) : Prop := s = [] \/ s = [10%N].
(** nothing, a colon, or a colon after white space *)
Definition colon (s : str) : Prop := s = [] \/ s = [58%N] \/ exists c, sp c = true /\ s = [c; 58%N].
(** no word goes on after [a] *)
Definition between_words (a : str) : Prop := forall a' c, a = a' ++ [c] -> wd c = false.
Definition any_case (word v : str) : Prop := Forall2 (fun c a => fold c = fold a) v word.
(** the names of the identifiers *)
Definition name_of (field : str) (w : str) : Prop :=
  if streq field (u "reference-doi") then any_case (u "DOI") w
  else if streq field (u "reference-pii") then any_case (u "PII") w
  else (forall c, In c w -> letter c) /\ 2 <= length w.
(** [a] is followed by the name, perhaps a colon, and the end *)
Definition named (field a r : str) : Prop := between_words a /\ exists w c q, r = w ++ c ++ q /\ name_of field w /\ colon c /\ ended q.
(** [a] is followed by the heading and white space *)
Definition heading (r : str) : Prop := exists h s, r = h ++ s /\ (h = u "abstract" \/ h = u "summary") /\ spaces s.
(** the label, white space, full stops and hyphens, white space *)
Definition labelled (label r : str) : Prop := exists s1 m s2, r = label ++ s1 ++ m ++ s2 /\ spaces s1 /\ (forall c, In c m -> c = 46%N \/ c = 45%N) /\ spaces s2.
End Spec.

(* ------------------------------------------------------------------ *)
Section Prefixes.
Variables sp wd dg : N -> bool.
Variable fold : N -> N.
Notation reads := (reads sp wd dg fold).
Notation start := (re_start sp wd dg fold).

(** the first place where the pattern can be read *)
Lemma start_spec pat p s (P : str -> str -> Prop) : re_compile pat = Parsed p ->
  (forall a w q g, s = a ++ w ++ q -> occurs sp wd dg fold p a w q g -> P a (w ++ q)) ->
  (forall a r, s = a ++ r -> P a r -> exists w q g, r = w ++ q /\ occurs sp wd dg fold p a w q g) ->
  match start pat s with
  | Some z => exists a r, s = a ++ r /\ P a r /\ z = Z.of_nat (length a) /\ forall a' r', s = a' ++ r' -> P a' r' -> length a <= length a'
  | None => forall a r, s = a ++ r -> ~ P a r
  end.
Proof.
  intros Ep H1 H2. unfold re_start. rewrite Ep. pose proof (C101_search sp wd dg fold p s) as C. destruct (re_search sp wd dg fold p s) as [m|]; cbn [option_map].
  - destruct C as (a & w & q & E & O & S1 & _ & L). exists a, (w ++ q). split; [exact E|]. split; [now apply (H1 a w q (fo_groups m))|]. split; [now rewrite S1|].
    intros a' r' E' P'. destruct (H2 a' r' E' P') as (w' & q' & g & -> & O'). exact (L a' w' q' g E' O').
  - intros a r E P'. destruct (H2 a r E P') as (w' & q' & g & -> & O'). exact (C a w' q' g E O').
Qed.
(** if there is one place at most *)
Lemma start_iff pat p s (P : str -> str -> Prop) : re_compile pat = Parsed p ->
  (forall a w q g, s = a ++ w ++ q -> occurs sp wd dg fold p a w q g -> P a (w ++ q)) ->
  (forall a r, s = a ++ r -> P a r -> exists w q g, r = w ++ q /\ occurs sp wd dg fold p a w q g) ->
  (forall a r a' r', s = a ++ r -> s = a' ++ r' -> P a r -> P a' r' -> length a = length a') ->
  forall n, start pat s = Some (Z.of_nat n) <-> exists a r, s = a ++ r /\ length a = n /\ P a r.
Proof.
  intros Ep H1 H2 H3 n. pose proof (start_spec pat p s P Ep H1 H2) as S. destruct (start pat s) as [z|].
  - destruct S as (a & r & E & Pa & -> & L). split.
    + intros [= K]. exists a, r. repeat split; auto. lia.
    + intros (a' & r' & E' & <- & P'). now rewrite (H3 a r a' r' E E' Pa P').
  - split; [discriminate|]. intros (a & r & E & _ & Pa). destruct (S a r E Pa).
Qed.

(** *** Names of identifiers *)
Record usual : Prop := mkUsual {
  letter_wd : forall c, letter c -> wd c = true;
  case_wd : forall c a, In a (u "DOIP") -> fold c = fold a -> wd c = true;
  sp_wd : forall c, sp c = true -> wd c = false;
  lf_wd : wd 10%N = false;
  colon_wd : wd 58%N = false;
  fold_colon : forall c, fold c = fold 58%N -> c = 58%N }.
Hypothesis Hu : usual.

Definition COLON : re := RRep true 0 (Some 1) (RGroup 1 (RSeq (RRep true 0 (Some 1) (RChar false [IKind KSpace false])) (RSeq (RLit 58%N) REmpty))).
Definition COLON_END : re := RSeq COLON (RSeq REnd REmpty).
Lemma colon_reads ic p i w q : (exists g, reads ic COLON p i w q g) <-> colon sp w.
Proof.
  unfold COLON, RLit. split.
  - intros [g R]. apply reads_opt in R as [[-> _]|[_ R]]; [now left|]. apply reads_group in R as (g' & _ & R). apply reads_seq in R as (w1 & w2 & g1 & g2 & -> & _ & R1 & R2).
    apply reads_seq in R2 as (w3 & w4 & g3 & g4 & -> & _ & R3 & R4). apply reads_empty in R4 as [-> _]. apply reads_char in R3 as (c & -> & _ & H3). apply in_lit in H3.
    assert (c = 58%N) as -> by (unfold same_char in H3; destruct ic; [now apply (fold_colon Hu)|exact H3]).
    apply reads_opt in R1 as [[-> _]|[_ R1]]; [right; left; reflexivity|]. apply reads_char in R1 as (c & -> & _ & H1). apply in_kind in H1. right. right. exists c. split; [exact H1|reflexivity].
  - assert (M : forall v, v = [] \/ (exists c, sp c = true /\ v = [c]) -> exists g, reads ic (RRep true 0 (Some 1) (RGroup 1 (RSeq (RRep true 0 (Some 1) (RChar false [IKind KSpace false])) (RSeq (RChar false [ILit 58%N]) REmpty)))) p i (v ++ [58%N]) q g).
    { intros v Hv. eexists. apply mk_opt; [now destruct v|]. constructor. eapply (mk_seq _ _ _ _ _ _ _ _ _ v [58%N]); [reflexivity|reflexivity| |].
      - apply mk_run; [lia| |lia|destruct Hv as [->|(c & _ & ->)]; cbn; lia]. destruct Hv as [->|(c & Hc & ->)]; [constructor|]. constructor; [now apply in_kind|constructor].
      - eapply (mk_seq _ _ _ _ _ _ _ _ _ [58%N] []); [reflexivity|reflexivity|apply mk_lit|constructor]. }
    intros [->|[->|(c & Hc & ->)]].
    + exists []. apply reads_opt. now left.
    + apply (M []). now left.
    + apply (M [c]). right. eauto.
Qed.
Lemma colon_end_reads ic p i w q : (exists g, reads ic COLON_END p i w q g) <-> colon sp w /\ ended q.
Proof.
  unfold COLON_END. split.
  - intros [g R]. apply reads_seq in R as (w1 & w2 & g1 & g2 & -> & _ & R1 & R2). apply reads_seq in R2 as (w3 & w4 & g3 & g4 & -> & _ & R3 & R4). apply reads_empty in R4 as [-> _].
    apply reads_end in R3 as (-> & _ & H). cbn [app] in H |- *. rewrite app_nil_r. split; [|exact H]. eapply colon_reads. eauto.
  - intros [Hc Hq]. apply (colon_reads ic p i w q) in Hc as [g R]. exists (([] ++ []) ++ g). eapply (mk_seq _ _ _ _ _ _ _ _ _ w []); [now rewrite app_nil_r|reflexivity|exact R|].
    eapply (mk_seq _ _ _ _ _ _ _ _ _ [] []); [reflexivity|reflexivity|constructor; exact Hq|constructor].
Qed.
Lemma after_none a : after None a = None <-> a = [].
Proof. destruct a as [|c a _] using rev_ind; [split; reflexivity|]. rewrite after_last. split; [discriminate|]. intros K. now destruct a. Qed.
Lemma bound_before a w q c w' : w = c :: w' -> wd c = true -> boundary wd (after None a) (w ++ q) <-> between_words wd a.
Proof.
  intros -> Hc. unfold boundary, between_words. cbn [app hd_error]. assert (W : word_char wd (Some c)) by (exists c; auto). split.
  - intros H a' d ->. rewrite after_last in H. destruct (wd d) eqn:E; [|reflexivity]. destruct H. split; intros _; [exact W|]. exists d. auto.
  - intros H K. destruct (proj2 K W) as (d & E & Hd). destruct a as [|d' a _] using rev_ind; [discriminate|]. rewrite after_last in E. injection E as ->. specialize (H a d eq_refl). congruence.
Qed.
(** the name starts with a word character and all of it is within one word *)
Definition is_name (N0 : str -> Prop) : Prop := forall w, N0 w -> w <> [] /\ forall c, In c w -> wd c = true.
Lemma named_unique N0 : is_name N0 -> forall a r a' r', a ++ r = a' ++ r' ->
  (between_words wd a /\ exists w c q, r = w ++ c ++ q /\ N0 w /\ colon sp c /\ ended q) ->
  (between_words wd a' /\ exists w c q, r' = w ++ c ++ q /\ N0 w /\ colon sp c /\ ended q) -> length a = length a'.
Proof.
  intros HN. assert (G : forall a r a' r', a ++ r = a' ++ r' -> (exists w c q, r = w ++ c ++ q /\ N0 w /\ colon sp c /\ ended q) ->
    (between_words wd a' /\ exists w c q, r' = w ++ c ++ q /\ N0 w /\ colon sp c /\ ended q) -> length a' <= length a).
  { intros a r a' r' E (w & c & q & -> & Hw & Hc & Hq) (B & w' & c' & q' & -> & Hw' & _). destruct (Nat.le_gt_cases (length a') (length a)) as [|L]; [assumption|exfalso].
    assert (Ea : a' = a ++ skipn (length a) a').
    { pose proof (f_equal (firstn (length a)) E) as F. rewrite !firstn_app in F. replace (length a - length a) with 0 in F by lia. replace (length a - length a') with 0 in F by lia.
      rewrite firstn_all, !firstn_O, !app_nil_r in F. rewrite F at 1. symmetry. apply firstn_skipn. }
    set (d := skipn (length a) a') in *. assert (Hd : d <> []) by (intros K; rewrite K, app_nil_r in Ea; rewrite Ea in L; lia).
    rewrite Ea, <- app_assoc in E. apply app_inv_head in E. destruct (HN w' Hw') as [Nw' Ww']. destruct (HN w Hw) as [Nw Ww].
    destruct w' as [|x w']; [contradiction|]. assert (Wx : wd x = true) by (apply Ww'; now left). clear Ww' Hw' Nw'.
    (* the other name starts inside of the first one or behind it *)
    destruct (Nat.le_gt_cases (length w) (length d)) as [Ld|Ld].
    - assert (In x (c ++ q)) as Hi.
      { pose proof (f_equal (skipn (length w)) E) as F. rewrite skipn_app, skipn_all, Nat.sub_diag in F. cbn [app] in F. change (skipn 0 (c ++ q)) with (c ++ q) in F. rewrite F, skipn_app.
        apply in_app_iff. right. replace (length w - length d) with 0 by lia. now left. }
      assert (wd x = false); [|congruence]. apply in_app_iff in Hi as [Hi|Hi].
      + destruct Hc as [->|[->|(y & Hy & ->)]]; [destruct Hi|destruct Hi as [<-|[]]; apply (colon_wd Hu)|]. destruct Hi as [<-|[<-|[]]]; [now apply (sp_wd Hu)|apply (colon_wd Hu)].
      + destruct Hq as [->| ->]; [destruct Hi|]. destruct Hi as [<-|[]]. apply (lf_wd Hu).
    - destruct d as [|y d _] using rev_ind; [contradiction|]. assert (wd y = false) by (apply (B (a ++ d)); rewrite Ea; now rewrite <- app_assoc).
      assert (wd y = true); [|congruence]. apply Ww.
      pose proof (f_equal (firstn (length w)) E) as F. rewrite firstn_app, firstn_all, Nat.sub_diag, firstn_O, app_nil_r in F. rewrite F, firstn_app. apply in_app_iff. left.
      rewrite firstn_all2 by lia. apply in_app_iff. right. now left. }
  intros a r a' r' E [B H] [B' H']. apply Nat.le_antisymm; [apply (G a' r' a r); auto|apply (G a r a' r'); auto].
Qed.
Lemma occurs_named ic N0 body p : is_name N0 -> (forall pr i w q, (exists g, reads ic body pr i w q g) <-> exists v c, w = v ++ c /\ N0 v /\ colon sp c /\ ended q) ->
  p = mkPattern ic 1 (RSeq (RBound false) body) -> forall pat s, re_compile pat = Parsed p ->
  forall n, start pat s = Some (Z.of_nat n) <-> exists a r, s = a ++ r /\ length a = n /\ between_words wd a /\ exists w c q, r = w ++ c ++ q /\ N0 w /\ colon sp c /\ ended q.
Proof.
  intros HN Hb -> pat s Ep. apply (start_iff pat _ s (fun a r => between_words wd a /\ exists w c q, r = w ++ c ++ q /\ N0 w /\ colon sp c /\ ended q) Ep).
  - intros a w q g _ O. unfold occurs in O. cbn [pt_ic pt_re] in O. apply reads_seq in O as (w1 & w2 & g1 & g2 & -> & _ & R1 & R2). apply reads_bound in R1 as (-> & _ & B). cbn [app] in *.
    destruct (proj1 (Hb (after None a) (length a + length (@nil N)) w2 q)) as (v & c & -> & Hv & Hc & Hq); [eauto|].
    destruct (HN v Hv) as [Nv Wv]. destruct v as [|x v]; [contradiction|]. split; [|exists (x :: v), c, q; rewrite <- app_assoc; auto].
    apply (bound_before a (x :: v) (c ++ q) x v eq_refl (Wv x (or_introl eq_refl))). now rewrite <- app_assoc in B.
  - intros a r _ (B & w & c & q & -> & Hw & Hc & Hq). destruct (HN w Hw) as [Nw Ww]. destruct w as [|x w]; [contradiction|].
    apply (bound_before a (x :: w) (c ++ q) x w eq_refl (Ww x (or_introl eq_refl))) in B.
    destruct (proj2 (Hb (after None a) (length a) ((x :: w) ++ c) q)) as [g R]; [exists (x :: w), c; auto|].
    exists ((x :: w) ++ c), q, g. rewrite <- app_assoc. split; [reflexivity|]. unfold occurs. cbn [pt_ic pt_re].
    eapply (mk_seq _ _ _ _ _ _ _ _ _ [] ((x :: w) ++ c) _ _ []); [reflexivity|now rewrite app_nil_r|constructor; now rewrite <- app_assoc|].
    cbn [length]. rewrite Nat.add_0_r. exact R.
  - intros a r a' r' E E'. apply (named_unique N0 HN). now rewrite <- E, <- E'.
Qed.

Lemma in_letter ic c : ic = false -> in_set sp wd dg fold ic false [IRange 97 122; IRange 65 90] c <-> letter c.
Proof.
  intros ->. unfold letter. cbn [in_set]. split.
  - intros (i & [<-|[<-|[]]] & [H|[H _]]); try discriminate; cbn in H; auto.
  - intros [H|H]; [exists (IRange 97 122)|exists (IRange 65 90)]; (split; [cbn; auto|left; exact H]).
Qed.
Lemma default_start s n : start DEFAULT_IDNO_PREFIX_REGEX s = Some (Z.of_nat n) <-> exists a r, s = a ++ r /\ length a = n /\ between_words wd a /\
  exists w c q, r = w ++ c ++ q /\ ((forall x, In x w -> letter x) /\ 2 <= length w) /\ colon sp c /\ ended q.
Proof.
  set (N0 := fun w : str => (forall x, In x w -> letter x) /\ 2 <= length w).
  apply (occurs_named false N0 (RSeq (RRep true 2 None (RChar false [IRange 97 122; IRange 65 90])) COLON_END) (mkPattern false 1 (RSeq (RBound false) (RSeq (RRep true 2 None (RChar false [IRange 97 122; IRange 65 90])) COLON_END)))).
  - intros w [H L]. split; [intros ->; cbn in L; lia|]. intros c Hc. now apply (letter_wd Hu), H.
  - intros pr i w q. split.
    + intros [g R]. apply reads_seq in R as (w1 & w2 & g1 & g2 & -> & _ & R1 & R2). apply reads_run in R1 as (_ & F & L & _); [|exact I].
      destruct (proj1 (colon_end_reads false (after pr w1) (i + length w1) w2 q)) as [Hc Hq]; [eauto|]. exists w1, w2. split; [reflexivity|]. split; [|auto]. split; [|exact L].
      intros x Hx. rewrite Forall_forall in F. apply (in_letter false x eq_refl), F, Hx.
    + intros (v & c & -> & [H L] & Hc & Hq). destruct (proj2 (colon_end_reads false (after pr v) (i + length v) c q) (conj Hc Hq)) as [g R]. exists (g ++ []).
      eapply (mk_seq _ _ _ _ _ _ _ _ _ v c _ _ [] g); [reflexivity|reflexivity| |exact R]. apply mk_run; [exact I| |exact L|exact I]. apply Forall_forall. intros x Hx. apply in_letter; [reflexivity|auto].
  - reflexivity.
  - vm_compute. reflexivity.
Qed.
Lemma case_start word pat s n : (forall a, In a word -> In a (u "DOIP")) -> word <> [] -> re_compile pat = Parsed (mkPattern true 1 (RSeq (RBound false) (lits word COLON_END))) ->
  start pat s = Some (Z.of_nat n) <-> exists a r, s = a ++ r /\ length a = n /\ between_words wd a /\ exists w c q, r = w ++ c ++ q /\ any_case fold word w /\ colon sp c /\ ended q.
Proof.
  intros Hw Nw Ep. apply (occurs_named true (any_case fold word) (lits word COLON_END) (mkPattern true 1 (RSeq (RBound false) (lits word COLON_END)))).
  - intros w F. split; [intros ->; inversion F; now subst|]. unfold any_case in F. clear Nw Ep. induction F as [|c a w word' H F IH]; [intros c []|]. intros x [<-|Hx].
    + apply (case_wd Hu _ a); [apply Hw; now left|exact H].
    + apply IH; [intros b Hb; apply Hw; now right|exact Hx].
  - intros pr i w q. split.
    + intros [g R]. apply reads_lits in R as (w1 & w2 & -> & F & R). destruct (proj1 (colon_end_reads true _ _ w2 q) (ex_intro _ g R)) as [Hc Hq]. exists w1, w2. auto.
    + intros (v & c & -> & F & Hc & Hq). destruct (proj2 (colon_end_reads true (after pr v) (i + length v) c q) (conj Hc Hq)) as [g R]. exists g. apply reads_lits. exists v, c. auto.
  - reflexivity.
  - exact Ep.
Qed.
(** C106: the prefix of an identifier: its name, perhaps a colon, at the end of the text *)
Theorem C106_names field rx s n : dict_get field IDNO_PREFIX_REGEX_MAP = Some rx ->
  start rx s = Some (Z.of_nat n) <-> exists a r, s = a ++ r /\ length a = n /\ named sp wd fold field a r.
Proof.
  intros H. apply dict_get_In in H. unfold named.
  destruct H as [[= <- <-]|[[= <- <-]|[[= <- <-]|[[= <- <-]|[[= <- <-]|[[= <- <-]|[[= <- <-]|[]]]]]]]];
    first [exact (default_start s n)|apply (case_start (u "DOI"))|apply (case_start (u "PII"))]; try discriminate; try (vm_compute; intuition; fail); try (vm_compute; reflexivity).
Qed.

(** *** Words before a tagged field *)
Lemma start_nat pat s z : start pat s = Some z -> (0 <= z)%Z.
Proof. unfold re_start. destruct (re_compile pat) as [p| |]; try discriminate. destruct (re_search sp wd dg fold p s) as [m|]; [|discriminate]. cbn. intros [= <-]. apply Zle_0_nat. Qed.
(** C106: an untagged token before an identifier is tagged if it ends after the start of the name *)
Theorem C106_tokens f gap t i rg : In f idno_sub_tags -> plain t -> SpecTeiWrite.value t = Some f -> nth_error (rspans gap) i = Some rg ->
  exists t', nth_error (prefix_tags start IDNO_PREFIX_REGEX_MAP idno_sub_tags gap t) i = Some t' /\
    (t' <> None <-> exists a r, rtext gap = a ++ r /\ named sp wd fold f a r /\ (Z.of_nat (length a) < snd rg)%Z).
Proof.
  intros Hf Pt Vt Hr. assert (Nt : t <> None) by (intros ->; discriminate).
  destruct (C24_prefix_tokens start IDNO_PREFIX_REGEX_MAP (Some idno_sub_tags) gap t i rg Pt Nt Hr) as (t' & E & H). exists t'. split; [exact E|]. rewrite H, Vt.
  assert (Ex : exists rx, dict_get f IDNO_PREFIX_REGEX_MAP = Some rx).
  { destruct Hf as [<-|[<-|[<-|[<-|[<-|[<-|[<-|[]]]]]]]]; (eexists; vm_compute; reflexivity). }
  destruct Ex as [rx Ex]. unfold prefix_start. apply mem_In in Hf. change (prefix_fields IDNO_PREFIX_REGEX_MAP (Some idno_sub_tags)) with idno_sub_tags. rewrite Hf, Ex. pose proof (fun n => C106_names f rx (rtext gap) n Ex) as C. split.
  - intros (st & S & L). assert (0 <= st)%Z by exact (start_nat _ _ _ S).
    rewrite <- (Z2Nat.id st) in S by assumption. apply C in S as (a & r & Ea & La & N). exists a, r. split; [exact Ea|]. split; [exact N|]. lia.
  - intros (a & r & Ea & N & L). exists (Z.of_nat (length a)). split; [|exact L]. apply C. exists a, r. auto.
Qed.
End Prefixes.

(** *** Headings and labels *)
Section Config.
Variables sp wd dg : N -> bool.
Variable fold : N -> N.
Notation reads := (reads sp wd dg fold false).
Notation start := (re_start sp wd dg fold).
Hypothesis sp_lf : sp 10%N = true.
Definition SPACES : re := RRep true 0 None (RChar false [IKind KSpace false]).
Lemma spaces_reads p i w q g : reads SPACES p i w q g <-> g = [] /\ spaces sp w.
Proof.
  unfold SPACES, spaces. rewrite reads_run by exact I. rewrite Forall_forall. split.
  - intros (-> & F & _). split; [reflexivity|]. intros c Hc. now apply (in_kind sp wd dg fold false KSpace c), F.
  - intros [-> F]. repeat split; try lia. intros c Hc. apply in_kind. now apply F.
Qed.
Lemma spaces_ended s q : spaces sp s -> ended q -> spaces sp (s ++ q).
Proof. intros H [->| ->] c Hc; apply in_app_iff in Hc as [Hc|Hc]; [now apply H|destruct Hc|now apply H|]. destruct Hc as [<-|[]]. exact sp_lf. Qed.
Lemma end_reads p i w q g : reads (RSeq REnd REmpty) p i w q g <-> w = [] /\ g = [] /\ ended q.
Proof.
  unfold ended. rewrite reads_seq. split.
  - intros (w1 & w2 & g1 & g2 & -> & -> & R1 & R2). apply reads_empty in R2 as [-> ->]. apply reads_end in R1 as (-> & -> & H). auto.
  - intros (-> & -> & H). exists [], [], [], []. repeat split; auto; constructor; exact H.
Qed.
Lemma same_plain w v : Forall2 (same_char fold false) w v <-> w = v.
Proof.
  split.
  - induction 1 as [|x y w v H _ IH]; [reflexivity|]. cbn in H. congruence.
  - intros ->. induction v as [|x v IH]; constructor; [reflexivity|exact IH].
Qed.
Lemma word_reads v p i w q g : reads (lits v REmpty) p i w q g <-> w = v /\ g = [].
Proof.
  rewrite reads_lits. split.
  - intros (w1 & w2 & -> & F & R). apply same_plain in F. apply reads_empty in R as [-> ->]. now rewrite app_nil_r.
  - intros [-> ->]. exists v, []. rewrite app_nil_r. repeat split; [now apply same_plain|constructor].
Qed.
Definition HEADING : re := RSeq (RGroup 1 (RAlt (lits (u "abstract") REmpty) (lits (u "summary") REmpty))) (RSeq SPACES (RSeq REnd REmpty)).
Lemma heading_reads p i w q : (exists g, reads HEADING p i w q g) <-> exists h s, w = h ++ s /\ (h = u "abstract" \/ h = u "summary") /\ spaces sp s /\ ended q.
Proof.
  unfold HEADING. split.
  - intros [g R]. apply reads_seq in R as (w1 & w2 & g1 & g2 & -> & _ & R1 & R2). apply reads_group in R1 as (g' & _ & R1). apply reads_seq in R2 as (w3 & w4 & g3 & g4 & -> & _ & R3 & R4).
    apply end_reads in R4 as (-> & _ & Hq). apply spaces_reads in R3 as [_ Hs]. rewrite app_nil_r. exists w1, w3. split; [reflexivity|]. split; [|auto].
    apply reads_alt in R1 as [R1|R1]; apply word_reads in R1; tauto.
  - intros (h & s & -> & Hh & Hs & Hq). eexists. eapply (mk_seq _ _ _ _ _ _ _ _ _ h s); [reflexivity|reflexivity| |].
    + constructor. apply reads_alt. destruct Hh as [->| ->]; [left|right]; apply word_reads; split; reflexivity.
    + eapply (mk_seq _ _ _ _ _ _ _ _ _ s []); [now rewrite app_nil_r|reflexivity|apply spaces_reads; split; [reflexivity|exact Hs]|]. apply end_reads. auto.
Qed.
Lemma heading_compiled : re_compile ABSTRACT_PREFIX_REGEX = Parsed (mkPattern false 1 HEADING).
Proof. vm_compute. reflexivity. Qed.
Lemma strip_unique : forall (s s' : str) x x' b b', spaces sp s -> spaces sp s' -> sp x = false -> sp x' = false -> s ++ x :: b = s' ++ x' :: b' -> s = s' /\ x = x' /\ b = b'.
Proof.
  induction s as [|c s IH]; intros [|c' s'] x x' b b' H H' Hx Hx' E; cbn [app] in E; injection E as E1 E2.
  - auto.
  - subst. rewrite (H' c') in Hx; [discriminate|now left].
  - subst. rewrite (H x') in Hx'; [discriminate|now left].
  - subst. destruct (IH s' x x' b b') as (-> & ? & ?); auto; intros d Hd; [apply H|apply H']; now right.
Qed.
Lemma heading_end h : h = u "abstract" \/ h = u "summary" -> exists b x, h = b ++ [x] /\ (x = 116%N \/ x = 121%N) /\ (x = 116%N -> length h = 8) /\ (x = 121%N -> length h = 7).
Proof.
  intros [->| ->].
  - exists (u "abstrac"), 116%N. repeat split; auto; discriminate.
  - exists (u "summar"), 121%N. repeat split; auto; discriminate.
Qed.
Lemma heading_unique a r a' r' : sp 116%N = false -> sp 121%N = false -> a ++ r = a' ++ r' -> heading sp r -> heading sp r' -> length a = length a'.
Proof.
  intros Ht Hy E (h & s & -> & Hh & Hs) (h' & s' & -> & Hh' & Hs').
  destruct (heading_end h Hh) as (b & x & -> & Hx & L1 & L2). destruct (heading_end h' Hh') as (b' & x' & -> & Hx' & L1' & L2').
  pose proof (f_equal (@length N) E) as L. apply (f_equal (@rev N)) in E. rewrite !rev_app_distr in E. cbn [rev app] in E. rewrite <- !app_assoc in E. cbn [app] in E.
  apply strip_unique in E as (E1 & -> & _).
  - apply (f_equal (@length N)) in E1. rewrite !rev_length in E1. rewrite !app_length in *. cbn [length] in *. destruct Hx as [->| ->]; [specialize (L1 eq_refl); specialize (L1' eq_refl)|specialize (L2 eq_refl); specialize (L2' eq_refl)]; lia.
  - intros c Hc. apply Hs. now apply in_rev.
  - intros c Hc. apply Hs'. now apply in_rev.
  - now destruct Hx as [->| ->].
  - now destruct Hx' as [->| ->].
Qed.
(** C106: the prefix of an abstract is its heading *)
Theorem C106_heading s n : sp 116%N = false -> sp 121%N = false ->
  start ABSTRACT_PREFIX_REGEX s = Some (Z.of_nat n) <-> exists a r, s = a ++ r /\ length a = n /\ heading sp r.
Proof.
  intros Ht Hy. apply (start_iff sp wd dg fold _ _ s (fun a r => heading sp r) heading_compiled).
  - intros a w q g _ O. unfold occurs in O. cbn [pt_ic pt_re] in O. destruct (proj1 (heading_reads _ _ w q) (ex_intro _ g O)) as (h & x & -> & Hh & Hx & Hq).
    exists h, (x ++ q). rewrite <- app_assoc. repeat split; auto. now apply spaces_ended.
  - intros a r _ (h & x & -> & Hh & Hx). destruct (proj2 (heading_reads (after None a) (length a) (h ++ x) [])) as [g R]; [exists h, x; repeat split; auto; now left|].
    exists (h ++ x), [], g. split; [now rewrite app_nil_r|exact R].
  - intros a r a' r' E E'. apply heading_unique; auto. congruence.
Qed.

Definition LABEL (v : str) : re := RSeq (RGroup 1 (lits v REmpty)) (RSeq SPACES (RSeq (RRep true 0 None (RChar false [ILit 46%N; ILit 45%N])) (RSeq SPACES (RSeq REnd REmpty)))).
Definition label_source (v : str) : str := u "(" ++ re_escape v ++ u ")\s*[\.-]*\s*$".
Lemma label_compiled v : re_compile (label_source v) = Parsed (mkPattern false 1 (LABEL v)).
Proof.
  pose (rest := u "\s*[\.-]*\s*$"). pose (body := re_escape v ++ 41%N :: rest : list N).
  assert (L : length v + 14 <= length body) by (unfold body; rewrite app_length; pose proof (re_escape_length v); change (length (41%N :: rest)) with 14; lia).
  assert (P : parse_alt (3 * length (40%N :: body) + 3) 0 (40%N :: body) = Parsed (LABEL v, 1, [])).
  { cbn [length]. set (k := 3 * length body - length v - 20). replace (3 * S (length body) + 3) with (S (S (S (S (length v + S (k + 21)))))) by (unfold k; lia).
    apply alt_one; [|discriminate]. eapply seq_step; [reflexivity|..].
    - apply atom_group; [unfold body; apply escape_head; [reflexivity|discriminate|discriminate]|]. eapply alt_one.
      + unfold body. rewrite parse_escaped by reflexivity. rewrite seq_end by (cbn; auto). reflexivity.
      + cbn. discriminate.
    - apply repeat_none. reflexivity.
    - replace (S (S (length v + S (k + 21)))) with (24 + (length v + k)) by lia. generalize (length v + k) as f. intros f. reflexivity. }
  change (label_source v) with (40%N :: body). assert (H : hd_error body <> Some 63%N) by (unfold body; apply escape_head; [reflexivity|discriminate|discriminate]).
  clearbody body. unfold re_compile. replace (starts_with (u "(?i)") (40%N :: body)) with false.
  - cbv iota beta zeta. rewrite P. reflexivity.
  - symmetry. change (u "(?i)") with [40; 63; 105; 41]%N. destruct body as [|c body]; [reflexivity|]. cbn in H. cbn [starts_with]. change (N.eqb 40 40) with true. cbv iota beta.
    destruct (N.eqb 63 c) eqn:E; [|reflexivity]. apply N.eqb_eq in E. now subst.
Qed.
Lemma marks_reads p i w q g : reads (RRep true 0 None (RChar false [ILit 46%N; ILit 45%N])) p i w q g <-> g = [] /\ forall c, In c w -> c = 46%N \/ c = 45%N.
Proof.
  rewrite reads_run by exact I. rewrite Forall_forall. split.
  - intros (-> & F & _). split; [reflexivity|]. intros c Hc. destruct (F c Hc) as (x & [<-|[<-|[]]] & K); cbn in K; auto.
  - intros [-> F]. repeat split; try lia. intros c Hc. destruct (F c Hc) as [->| ->]; [exists (ILit 46%N)|exists (ILit 45%N)]; (split; [cbn; auto|reflexivity]).
Qed.
Lemma label_reads v p i w q : (exists g, reads (LABEL v) p i w q g) <-> labelled sp v w /\ ended q.
Proof.
  unfold LABEL, labelled. split.
  - intros [g R]. apply reads_seq in R as (w1 & w2 & g1 & g2 & -> & _ & R1 & R2). apply reads_group in R1 as (g' & _ & R1). apply word_reads in R1 as [-> _].
    apply reads_seq in R2 as (s1 & w3 & g3 & g4 & -> & _ & R3 & R4). apply spaces_reads in R3 as [_ H1].
    apply reads_seq in R4 as (m & w5 & g5 & g6 & -> & _ & R5 & R6). apply marks_reads in R5 as [_ Hm].
    apply reads_seq in R6 as (s2 & w7 & g7 & g8 & -> & _ & R7 & R8). apply spaces_reads in R7 as [_ H2]. apply end_reads in R8 as (-> & _ & Hq). rewrite app_nil_r.
    split; [|exact Hq]. exists s1, m, s2. auto.
  - intros [(s1 & m & s2 & -> & H1 & Hm & H2) Hq]. eexists. eapply (mk_seq _ _ _ _ _ _ _ _ _ v (s1 ++ m ++ s2)); [reflexivity|reflexivity|constructor; apply word_reads; split; reflexivity|].
    eapply (mk_seq _ _ _ _ _ _ _ _ _ s1 (m ++ s2)); [reflexivity|reflexivity|apply spaces_reads; split; [reflexivity|exact H1]|].
    eapply (mk_seq _ _ _ _ _ _ _ _ _ m s2); [reflexivity|reflexivity|apply marks_reads; split; [reflexivity|exact Hm]|].
    eapply (mk_seq _ _ _ _ _ _ _ _ _ s2 []); [now rewrite app_nil_r|reflexivity|apply spaces_reads; split; [reflexivity|exact H2]|]. apply end_reads. auto.
Qed.
Lemma labelled_ended v w q : labelled sp v w -> ended q -> labelled sp v (w ++ q).
Proof. intros (s1 & m & s2 & -> & H1 & Hm & H2) Hq. exists s1, m, (s2 ++ q). rewrite <- !app_assoc. repeat split; auto. now apply spaces_ended. Qed.
Lemma label_start v s : match start (label_source v) s with
  | Some z => exists a r, s = a ++ r /\ labelled sp v r /\ z = Z.of_nat (length a) /\ forall a' r', s = a' ++ r' -> labelled sp v r' -> length a <= length a'
  | None => forall a r, s = a ++ r -> ~ labelled sp v r
  end.
Proof.
  apply (start_spec sp wd dg fold _ _ s (fun _ r => labelled sp v r) (label_compiled v)).
  - intros a w q g _ O. unfold occurs in O. cbn [pt_ic pt_re] in O. destruct (proj1 (label_reads v _ _ w q) (ex_intro _ g O)) as [H Hq]. now apply labelled_ended.
  - intros a r _ H. destruct (proj2 (label_reads v (after None a) (length a) r [])) as [g R]; [split; [exact H|now left]|]. exists r, [], g. split; [now rewrite app_nil_r|exact R].
Qed.

(** the value of the last sub annotation with the name that is not a list *)
Definition last_value (name : str) (subs : list (str * tvalue)) (v : ostr) : Prop :=
  match v with
  | Some x => exists before after, subs = before ++ (name, VOne x) :: after /\ forall y, ~ In (name, VOne y) after
  | None => forall y, ~ In (name, VOne y) subs
  end.
Lemma placeholders_last name subs : last_value name subs (dict_get name (placeholders subs)).
Proof.
  unfold placeholders. induction subs as [|[k v] subs IH] using rev_ind; [intros y []|]. rewrite fold_left_app. cbn [fold_left fst snd].
  destruct v as [x|l].
  - destruct (streq k name) eqn:E.
    + apply streq_true in E. subst k. rewrite dict_get_set_same. exists subs, []. split; [reflexivity|]. intros y [].
    + assert (N : name <> k) by (intros ->; now rewrite streq_refl in E). rewrite dict_get_set_other by congruence. destruct (dict_get name _) as [y|]; cbn [last_value] in IH |- *.
      * destruct IH as (b & a & -> & Ha). exists b, (a ++ [(k, VOne x)]). rewrite <- app_assoc. split; [reflexivity|]. intros z Hz. apply in_app_iff in Hz as [Hz|[[= K _]|[]]]; [now apply (Ha z)|congruence].
      * intros z Hz. apply in_app_iff in Hz as [Hz|[[= K _]|[]]]; [now apply (IH z)|congruence].
  - destruct (dict_get name _) as [y|]; cbn [last_value] in IH |- *.
    + destruct IH as (b & a & -> & Ha). exists b, (a ++ [(k, VMany l)]). rewrite <- app_assoc. split; [reflexivity|]. intros z Hz. apply in_app_iff in Hz as [Hz|[Hz|[]]]; [now apply (Ha z)|discriminate].
    + intros z Hz. apply in_app_iff in Hz as [Hz|[Hz|[]]]; [now apply (IH z)|discriminate].
Qed.
(** what the pattern looks for: the label of the affiliation, or a text that normalised text
    does not contain *)
Definition label_text (subs : list (str * tvalue)) (v : str) : Prop :=
  last_value (u "author_aff-label") subs (Some v) \/ (last_value (u "author_aff-label") subs None /\ v = u "NOT_FOUND").
Lemma aff_resolved subs : exists v, label_text subs v /\ resolve_placeholders re_escape AFF_PREFIX_REGEX (placeholders subs) = label_source v.
Proof.
  pose proof (placeholders_last (u "author_aff-label") subs) as H. set (ph := placeholders subs) in *.
  exists (match dict_get (u "author_aff-label") ph with Some v => v | None => u "NOT_FOUND" end). split.
  - destruct (dict_get (u "author_aff-label") ph) as [v|]; [now left|right; auto].
  - clear H. clearbody ph. unfold resolve_placeholders, AFF_PREFIX_REGEX. reflexivity.
Qed.
(** the range from [r] with the prefix in front of it: up to the first place in the text before
    from which on [P] holds *)
Definition prefixed_by (P : str -> Prop) (before : str) (r r' : irange) : Prop :=
  snd r' = snd r /\
  ((fst r' = fst r /\ forall a x, before = a ++ x -> ~ P x) \/
   exists a x, before = a ++ x /\ P x /\ fst r' = Z.of_nat (length a) /\ forall a' x', before = a' ++ x' -> P x' -> length a <= length a').

Variable c : config.
(** C106: an affiliation is extended to its label, and white space, full stops and hyphens after it *)
Theorem C106_label text r a : tc_prefix_regex (get_tag_config c (an_name a)) = Some AFF_PREFIX_REGEX -> (0 < fst r)%Z ->
  exists v, label_text (an_subs a) v /\
    prefixed_by (labelled sp v) (firstn (Z.to_nat (fst r)) (text_of text)) r (with_prefix re_escape start c text r a).
Proof.
  intros Hc Hr. destruct (aff_resolved (an_subs a)) as (v & Hv & Er). exists v. split; [exact Hv|].
  unfold with_prefix. rewrite Hc. apply Z.ltb_lt in Hr. rewrite Hr. change AFF_PREFIX_REGEX with (40%N :: skipn 1 AFF_PREFIX_REGEX) at 1. cbv iota beta. change (40%N :: skipn 1 AFF_PREFIX_REGEX) with AFF_PREFIX_REGEX. rewrite Er.
  pose proof (label_start v (firstn (Z.to_nat (fst r)) (text_of text))) as S. destruct (start (label_source v) _) as [z|].
  - destruct S as (x & y & E & H & -> & L). split; [reflexivity|]. right. exists x, y. auto.
  - split; [reflexivity|]. left. auto.
Qed.
(** C106: an abstract is extended to its heading *)
Theorem C106_abstract text r a : sp 116%N = false -> sp 121%N = false -> tc_prefix_regex (get_tag_config c (an_name a)) = Some ABSTRACT_PREFIX_REGEX -> (0 < fst r)%Z ->
  prefixed_by (heading sp) (firstn (Z.to_nat (fst r)) (text_of text)) r (with_prefix re_escape start c text r a).
Proof.
  intros Ht Hy Hc Hr. unfold with_prefix. rewrite Hc. apply Z.ltb_lt in Hr. rewrite Hr. change ABSTRACT_PREFIX_REGEX with (40%N :: skipn 1 ABSTRACT_PREFIX_REGEX) at 1. cbv iota beta. change (40%N :: skipn 1 ABSTRACT_PREFIX_REGEX) with ABSTRACT_PREFIX_REGEX.
  change (resolve_placeholders re_escape ABSTRACT_PREFIX_REGEX (placeholders (an_subs a))) with ABSTRACT_PREFIX_REGEX.
  set (s := firstn _ _). pose proof (fun n => C106_heading s n Ht Hy) as C. destruct (start ABSTRACT_PREFIX_REGEX s) as [z|] eqn:E.
  - pose proof (start_nat _ _ _ _ _ _ _ E) as Nz. destruct (proj1 (C (Z.to_nat z))) as (a0 & x & Es & L & H); [f_equal; lia|]. split; [reflexivity|]. right. exists a0, x. cbn [fst]. repeat split; auto; [lia|].
    intros a' x' Es' H'. rewrite (heading_unique a0 x a' x'); auto. congruence.
  - split; [reflexivity|]. left. split; [reflexivity|]. intros a0 x Es H. enough (None = Some (Z.of_nat (length a0))) by discriminate. apply C. exists a0, x. auto.
Qed.
(** a label with a letter that the text, which is in lower case, does not contain *)
Theorem C106_other_case text r a v x : tc_prefix_regex (get_tag_config c (an_name a)) = Some AFF_PREFIX_REGEX ->
  last_value (u "author_aff-label") (an_subs a) (Some v) -> In x v -> ~ In x (text_of text) -> with_prefix re_escape start c text r a = r.
Proof.
  intros Hc Hv Hx Nx. destruct (Z.ltb 0 (fst r)) eqn:Hr; [|unfold with_prefix; rewrite Hc, Hr; reflexivity].
  apply Z.ltb_lt in Hr. destruct (C106_label text r a Hc Hr) as (w & Hw & H2 & H).
  assert (w = v) as ->.
  { destruct Hw as [Hw|[Hw _]].
    - pose proof (placeholders_last (u "author_aff-label") (an_subs a)) as P.
      assert (U : forall y z, last_value (u "author_aff-label") (an_subs a) (Some y) -> last_value (u "author_aff-label") (an_subs a) (Some z) -> y = z).
      { clear. intros y z (b & t & E & Ht) (b' & t' & E' & Ht'). rewrite E in E'. clear E. revert b' E'. induction b as [|k b IH]; intros [|k' b'] E'; cbn [app] in E'.
        - congruence.
        - injection E' as _ E'. destruct (Ht z). rewrite E'. apply in_app_iff. right. now left.
        - injection E' as _ E'. destruct (Ht' y). rewrite <- E'. apply in_app_iff. right. now left.
        - injection E' as _ E'. now apply (IH b'). }
      now apply U.
    - destruct Hv as (b & t & E & _). destruct (Hw v). rewrite E. apply in_app_iff. right. now left. }
  destruct H as [[H _]|(a0 & y & E & (s1 & m & s2 & -> & _) & _)].
  - destruct (with_prefix _ _ _ _ _ _) as [i j], r as [i' j']. cbn [fst snd] in *. congruence.
  - destruct Nx. rewrite <- (firstn_skipn (Z.to_nat (fst r)) (text_of text)), E. apply in_app_iff. left. apply in_app_iff. right. apply in_app_iff. now left.
Qed.
End Config.

(** C106: the patterns of the shipped configuration compile, and no other field has one *)
Theorem C106_shipped sp lb lower parse_int set_order d : lower (u "True") = u "true" -> parse_int (u "1") = Some 1%Z -> (forall l f, In f (set_order l) <-> In f l) ->
  tag_config_map sp lb lower re_compiles parse_int set_order [(u "article", article)] = Ok d ->
  (forall f c rx, dict_get f d = Some c -> tc_prefix_regex c = Some rx -> (f = u "abstract" /\ rx = ABSTRACT_PREFIX_REGEX) \/ (f = u "author_aff" /\ rx = AFF_PREFIX_REGEX)) /\
  (exists c, dict_get (u "abstract") d = Some c /\ tc_prefix_regex c = Some ABSTRACT_PREFIX_REGEX) /\
  (exists c, dict_get (u "author_aff") d = Some c /\ tc_prefix_regex c = Some AFF_PREFIX_REGEX).
Proof.
  intros Hl Hi Hs Hd. destruct (C86_map sp lb lower re_compiles parse_int Hl Hi set_order [(u "article", article)] Hs) as [M1 M2].
  pose proof (proj1 M2 (ex_intro _ d Hd)) as Ex. destruct (M1 d Hd) as [_ M]. clear M1 M2.
  set (entries := filter (fun kv : str * str => ends_with (u ".match-prefix-regex") (fst kv)) article).
  assert (En : entries = [(u "abstract.match-prefix-regex", ABSTRACT_PREFIX_REGEX); (u "author_aff.match-prefix-regex", AFF_PREFIX_REGEX)]) by (vm_compute; reflexivity).
  assert (Fl : flat_map snd [(u "article", article)] = article) by (cbn [flat_map snd]; apply app_nil_r).
  assert (G : forall f v, given_last [(u "article", article)] (f ++ u ".match-prefix-regex") (Some v) -> (f = u "abstract" /\ v = ABSTRACT_PREFIX_REGEX) \/ (f = u "author_aff" /\ v = AFF_PREFIX_REGEX)).
  { intros f v (b & t & E & _). rewrite Fl in E. assert (I : In (f ++ u ".match-prefix-regex", v) entries).
    { unfold entries. apply filter_In. split; [rewrite E; apply in_app_iff; right; now left|]. cbn [fst]. apply ends_with_app. }
    rewrite En in I. destruct I as [[= K <-]|[[= K <-]|[]]]; [left|right]; (split; [|reflexivity]).
    - symmetry in K. apply (app_inv_tail (u ".match-prefix-regex")). exact K.
    - symmetry in K. apply (app_inv_tail (u ".match-prefix-regex")). exact K. }
  assert (P : forall f c rx, described sp lb lower re_compiles parse_int [(u "article", article)] f c -> tc_prefix_regex c = Some rx -> (f = u "abstract" /\ rx = ABSTRACT_PREFIX_REGEX) \/ (f = u "author_aff" /\ rx = AFF_PREFIX_REGEX)).
  { intros f c rx (regex & sps & me & ex & ch & bl & Hg & Hr & _) Hc. destruct regex as [v|]; [|cbn in Hr; congruence]. destruct (G f v Hg) as [[-> ->]|[-> ->]].
    - left. split; [reflexivity|]. destruct Hr as (r' & U & _ & E). inversion U; subst. congruence.
    - right. split; [reflexivity|]. destruct Hr as (r' & U & _ & E). inversion U; subst. congruence. }
  assert (D : forall f v, In (f ++ u ".match-prefix-regex", v) article -> In f (map fst article) -> ~ In 46%N f -> exists c, dict_get f d = Some c /\ exists rx, tc_prefix_regex c = Some rx).
  { intros f v Hv Hf Nf. assert (F : field_of [(u "article", article)] f) by (split; [now rewrite Fl|exact Nf]). destruct (Ex f F) as [c Hc]. exists c. split; [apply M; auto|].
    destruct Hc as (regex & sps & me & ex & ch & bl & Hg & Hr & _). destruct regex as [w|].
    - destruct w as [|x w]; [exists []; exact Hr|]. destruct Hr as (r' & _ & _ & E). eauto.
    - destruct Hg. rewrite Fl. exact (in_map fst _ _ Hv). }
  assert (I1 : In (u "abstract.match-prefix-regex", ABSTRACT_PREFIX_REGEX) entries) by (rewrite En; now left).
  assert (I2 : In (u "author_aff.match-prefix-regex", AFF_PREFIX_REGEX) entries) by (rewrite En; right; now left).
  apply filter_In in I1 as [I1 _]. apply filter_In in I2 as [I2 _].
  split; [|split].
  - intros f c rx Hc. apply M in Hc as [_ Hc]. now apply P.
  - destruct (D (u "abstract") ABSTRACT_PREFIX_REGEX I1) as (c & Hc & rx & Hx); [apply mem_In; vm_compute; reflexivity|vm_compute; intuition discriminate|].
    exists c. split; [exact Hc|]. apply M in Hc as [_ Hc]. destruct (P _ _ _ Hc Hx) as [[_ ->]|[K _]]; [exact Hx|discriminate].
  - destruct (D (u "author_aff") AFF_PREFIX_REGEX I2) as (c & Hc & rx & Hx); [apply mem_In; vm_compute; reflexivity|vm_compute; intuition discriminate|].
    exists c. split; [exact Hc|]. apply M in Hc as [_ Hc]. destruct (P _ _ _ Hc Hx) as [[K _]|[_ ->]]; [discriminate|exact Hx].
Qed.
(** C106: all patterns used compile *)
Theorem C106_compiles : (forall k s, In (k ++ u ".match-prefix-regex", s) article -> re_compiles s = true) /\
  (forall f, In f idno_sub_tags -> exists rx, dict_get f IDNO_PREFIX_REGEX_MAP = Some rx /\ re_compiles rx = true) /\
  (forall v, re_compiles (resolve_placeholders re_escape AFF_PREFIX_REGEX [(u "author_aff-label", v)]) = true).
Proof.
  split; [|split].
  - intros k s H. assert (E : forallb (fun kv : str * str => implb (ends_with (u ".match-prefix-regex") (fst kv)) (re_compiles (snd kv))) article = true) by (vm_compute; reflexivity).
    rewrite forallb_forall in E. specialize (E _ H). cbn [fst snd] in E. now rewrite ends_with_app in E.
  - intros f [<-|[<-|[<-|[<-|[<-|[<-|[<-|[]]]]]]]]; (eexists; split; vm_compute; reflexivity).
  - intros v. change (resolve_placeholders re_escape AFF_PREFIX_REGEX [(u "author_aff-label", v)]) with (label_source v). unfold re_compiles. now rewrite label_compiled.
Qed.

(* ------------------------------------------------------------------ *)
(** ** Examples *)
Definition fold_ascii (c : N) : N := if ascii_upper c then (c + 32)%N else c.
Definition ex_start := re_start ascii_space ascii_word ascii_digit fold_ascii.
Example C106_ex_usual : usual ascii_space ascii_word fold_ascii.
Proof.
  assert (A : forall c, ascii_upper c = true <-> (65 <= c <= 90)%N) by (intros c; unfold ascii_upper; rewrite andb_true_iff, !N.leb_le; lia).
  assert (W : forall c, letter c -> ascii_word c = true).
  { intros c H. unfold ascii_word, ascii_alpha, ascii_upper, ascii_lower. rewrite !orb_true_iff, !andb_true_iff, !N.leb_le. destruct H; lia. }
  split; try reflexivity.
  - exact W.
  - intros c a Ha H. apply W. unfold letter. unfold fold_ascii in H. destruct (ascii_upper c) eqn:E; [apply A in E; lia|].
    destruct Ha as [<-|[<-|[<-|[<-|[]]]]]; vm_compute in H; lia.
  - intros c H. unfold ascii_space in H. rewrite orb_true_iff, andb_true_iff, N.eqb_eq, !N.leb_le in H.
    unfold ascii_word, ascii_alpha, ascii_upper, ascii_lower, ascii_digit. rewrite !orb_false_iff, !andb_false_iff, !N.leb_gt, N.eqb_neq. lia.
  - intros c. unfold fold_ascii. change (ascii_upper 58%N) with false. cbv iota. destruct (ascii_upper c) eqn:E; [|auto]. apply A in E. lia.
Qed.
Example C106_names_example :
  ex_start (u "(?i)\bDOI(\s?:)?$") (u "1999, doi :") = Some 6%Z /\ ex_start (u "(?i)\bDOI(\s?:)?$") (u "see mydoi:") = None /\
  ex_start (u "(?i)\bPII(\s?:)?$") (u "PII: ") = None /\ ex_start DEFAULT_IDNO_PREFIX_REGEX (u "12 PMID:" ++ [10%N]) = Some 3%Z /\ ex_start DEFAULT_IDNO_PREFIX_REGEX (u "12 P") = None.
Proof. vm_compute. auto. Qed.
(** tests/annotation/reference_annotator_test.py L9-32 *)
Definition ref_tok (t : ostr) (s : string) : rtok := (t, u s, None).
Definition doi_map : list (str * str) := [(u "reference-doi", DEFAULT_IDNO_PREFIX_REGEX)].
Definition gap_example : list rtok := [ref_tok None "some"; ref_tok None "other"; ref_tok None "text"; ref_tok None ","; ref_tok None "DOI"; ref_tok None ":"].
Example C106_tokens_example :
  prefix_extended ex_start doi_map None [ref_tok None "DOI"; ref_tok None ":"; ref_tok (Some (u "b-reference-doi")) "12345"]
    = Ok [Some (u "b-reference-doi"); Some (u "i-reference-doi"); Some (u "i-reference-doi")] /\
  prefix_extended ex_start doi_map None (gap_example ++ [ref_tok (Some (u "b-reference-doi")) "12345"])
    = Ok [None; None; None; None; Some (u "b-reference-doi"); Some (u "i-reference-doi"); Some (u "i-reference-doi")] /\
  prefix_extended ex_start doi_map None [ref_tok None "DOI"; ref_tok None ":"; ref_tok (Some (u "b-other")) "12345"] = Ok [None; None; Some (u "b-other")] /\
  prefix_tags ex_start IDNO_PREFIX_REGEX_MAP idno_sub_tags gap_example (Some (u "b-reference-doi")) = [None; None; None; None; Some (u "b-reference-doi"); Some (u "i-reference-doi")] /\
  In (u "reference-doi") idno_sub_tags /\ plain (Some (u "b-reference-doi")) /\ SpecTeiWrite.value (Some (u "b-reference-doi")) = Some (u "reference-doi") /\
  nth_error (rspans gap_example) 4 = Some (18, 21)%Z /\ rtext gap_example = u "some other text , " ++ u "DOI :".
Proof. repeat split; try (vm_compute; reflexivity); [right; right; now left|right; reflexivity]. Qed.
(** any word is taken for the name of the other identifiers *)
Theorem C106_any_word_refuted : exists gap, rtext gap = u "published in" /\
  prefix_extended ex_start IDNO_PREFIX_REGEX_MAP (Some idno_sub_tags) (gap ++ [ref_tok (Some (u "b-reference-issn")) "1234-5678"])
    = Ok [None; Some (u "b-reference-issn"); Some (u "i-reference-issn")].
Proof. exists [ref_tok None "published"; ref_tok None "in"]. vm_compute. auto. Qed.

Example C106_heading_example : ex_start ABSTRACT_PREFIX_REGEX (u "the title" ++ 10%N :: u "abstract" ++ [10%N]) = Some 10%Z /\ ex_start ABSTRACT_PREFIX_REGEX (u "abstract 1") = None /\ ascii_space 116%N = false /\ ascii_space 121%N = false.
Proof. vm_compute. auto. Qed.
Definition aff_tags : list (str * tag_config) :=
  [(u "author_aff", mkTagConfig (Some AFF_PREFIX_REGEX) [] true true 1 None); (u "abstract", mkTagConfig (Some ABSTRACT_PREFIX_REGEX) [] true true 1 None)].
Definition aff_config : config := mkConfig 200 2 5 true false true false aff_tags.
Definition ex_word (s : string) : tok := mkTok (u s) None None None None (Some (u " ")).
Definition aff_run (targets : list tann) (d : doc) := simple_annotate ascii_space ascii_word lower_ascii re_escape ex_start exact_chunks exact_all aff_config false 3 targets d.
Definition aff_of (label : string) : tann := mkTann (u "author_aff") (VOne (u "University")) [(u "author_aff-label", VOne (u label))].
Definition b_aff : ostr := Some (u "b-author_aff").
Definition i_aff : ostr := Some (u "i-author_aff").
Example C106_label_example :
  (exists d, aff_run [aff_of "a."] [[ex_word "Mary"; ex_word "a."]; [ex_word "-"; ex_word "University"]] = Ok d /\ map (map tag) d = [[None; b_aff]; [i_aff; i_aff]]) /\
  (exists d, aff_run [aff_of "1"] [[ex_word "Mary"]; [ex_word "University"]] = Ok d /\ map (map tag) d = [[None]; [b_aff]]) /\
  (exists d, aff_run [mkTann (u "abstract") (VOne (u "Results")) []] [[ex_word "ABSTRACT"]; [ex_word "Results"]] = Ok d /\ map (map tag) d = [[Some (u "b-abstract")]; [Some (u "i-abstract")]]) /\
  tc_prefix_regex (get_tag_config aff_config (u "author_aff")) = Some AFF_PREFIX_REGEX /\ tc_prefix_regex (get_tag_config aff_config (u "abstract")) = Some ABSTRACT_PREFIX_REGEX.
Proof. repeat split; try (eexists; split; vm_compute; reflexivity). Qed.
(** a label in upper case is not found, whatever is in front of the affiliation *)
Theorem C106_case_refuted : exists d, aff_run [aff_of "A"] [[ex_word "A"; ex_word "University"]] = Ok d /\ map (map tag) d = [[None; b_aff]].
Proof. eexists. split; vm_compute; reflexivity. Qed.
(** the end of another number is taken for the label *)
Theorem C106_word_refuted : exists d, aff_run [aff_of "1"] [[ex_word "Mary"; ex_word "21"]; [ex_word "University"]] = Ok d /\ map (map tag) d = [[None; b_aff]; [i_aff]].
Proof. eexists. split; vm_compute; reflexivity. Qed.
Example C106_other_case_example : let text := [[mkW (0, 0) (u "a") (u " "); mkW (0, 1) (u "university") (u " ")]] in
  with_prefix re_escape ex_start aff_config text (2, 12)%Z (aff_of "A") = (2, 12)%Z /\ with_prefix re_escape ex_start aff_config text (2, 12)%Z (aff_of "a") = (0, 12)%Z /\
  last_value (u "author_aff-label") (an_subs (aff_of "A")) (Some (u "A")) /\ ~ In 65%N (text_of text).
Proof. cbv zeta. repeat split; try (vm_compute; reflexivity); [exists [], []; split; [reflexivity|intros y []]|vm_compute; intuition discriminate]. Qed.
Example C106_shipped_example : exists d, tag_config_map ascii_space (fun c => N.eqb c 10) lower_ascii re_compiles (fun s => if streq s (u "1") then Some 1%Z else if streq s (u "2") then Some 2%Z else None) (fun l => l) [(u "article", article)] = Ok d /\ lower_ascii (u "True") = u "true".
Proof. eexists. split; vm_compute; reflexivity. Qed.

Print Assumptions C106_names.
Print Assumptions C106_tokens.
Print Assumptions C106_any_word_refuted.
Print Assumptions C106_heading.
Print Assumptions C106_label.
Print Assumptions C106_abstract.
Print Assumptions C106_other_case.
Print Assumptions C106_case_refuted.
Print Assumptions C106_word_refuted.
Print Assumptions C106_shipped.
Print Assumptions C106_compiles.
