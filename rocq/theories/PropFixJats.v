(** C92, C93, C94: fixing JATS files. *)
From Verif Require Import Base ModelDownload PropDownload ModelTarget PropTarget ModelJatsText PropJatsText ModelJats PropJats ModelPipeline PropPipeline ModelFixJats.
Open Scope list_scope.
Open Scope nat_scope.

(* ---------------------------------------------------------------- *)
(** ** Lines *)
Definition no_lf (s : str) : Prop := ~ In 10%N s.
(** [l] is line number [n] of the file *)
Inductive line_at : str -> nat -> str -> Prop :=
| line_first l rest : no_lf l -> line_at (l ++ 10%N :: rest) 1 (l ++ [10%N])
| line_last l : no_lf l -> l <> [] -> line_at l 1 l
| line_next l rest n l' : no_lf l -> line_at rest n l' -> line_at (l ++ 10%N :: rest) (S n) l'.
(** without leading blanks *)
Definition opened (data s : str) : Prop := exists p, data = p ++ s /\ Forall (eq 32%N) p /\ forall r, s <> 32%N :: r.

Lemma lf_split a b r r' : no_lf a -> no_lf b -> a ++ 10%N :: r = b ++ 10%N :: r' -> a = b /\ r = r'.
Proof.
  revert b. induction a as [|x a IH]; intros [|y b] Ha Hb E; cbn in E.
  - injection E as ->. auto.
  - injection E as E1 E2. subst y. exfalso. apply Hb. now left.
  - injection E as E1 E2. subst x. exfalso. apply Ha. now left.
  - injection E as E1 E2. subst y. destruct (IH b) as [-> ->]; auto; [intros H; apply Ha; now right|intros H; apply Hb; now right].
Qed.
Lemma no_lf_app a r : ~ no_lf (a ++ 10%N :: r).
Proof. intros H. apply H. apply in_or_app. right. now left. Qed.
Lemma find_line_nth n ls : forall k l, find_line n k ls = Some l <-> exists i, n = k + i /\ nth_error ls i = Some l.
Proof.
  induction ls as [|x ls IH]; intros k l; cbn [find_line].
  - split; [discriminate|]. intros ([|i] & _ & H); discriminate.
  - destruct (Nat.eqb_spec k n) as [->|H].
    + split; [intros [= ->]; exists 0; split; [lia|reflexivity]|]. intros ([|i] & Hi & H); [exact H|lia].
    + rewrite IH. split.
      * intros (i & Hi & E). exists (S i). split; [lia|exact E].
      * intros ([|i] & Hi & E); [lia|]. exists i. split; [lia|exact E].
Qed.
Lemma file_lines_at s : forall cur i l, no_lf cur -> nth_error (file_lines cur s) i = Some l <-> line_at (cur ++ s) (S i) l.
Proof.
  induction s as [|x s IH]; intros cur i l Hc; cbn [file_lines].
  - rewrite app_nil_r. assert (K : line_at cur (S i) l -> i = 0 /\ l = cur /\ cur <> []).
    { intros H. inversion H; subst; auto; exfalso; eapply no_lf_app; eauto. }
    destruct cur as [|c cur].
    + split; [destruct i; discriminate|]. intros H. now destruct (K H) as (_ & _ & ?).
    + split; [destruct i as [|[|]]; intros [= <-]; now constructor|]. intros H. destruct (K H) as (-> & -> & _). reflexivity.
  - unfold LF. destruct (N.eqb_spec x 10) as [->|Hx].
    + destruct i as [|i]; cbn [nth_error].
      * split; [intros [= <-]; now constructor|]. intros H. inversion H as [l0 rest H0 E0|l0 H0 H1 E0|l0 rest n l' H0 H1 E0]; subst.
        -- apply lf_split in E0 as [-> ->]; auto.
        -- exfalso. eapply no_lf_app; eauto.
        -- inversion H1.
      * rewrite IH by (intros []). split; [now constructor|]. intros H. inversion H as [| |l0 rest n l' H0 H1 E0]; subst.
        apply lf_split in E0 as [-> ->]; auto.
    + rewrite IH; [now rewrite <- app_assoc|]. unfold no_lf. rewrite in_app_iff. intros [H|[H|[]]]; [now apply Hc|now apply Hx].
Qed.
Lemma reported_line data n l : find_line n 1 (file_lines [] data) = Some l <-> line_at data n l.
Proof.
  rewrite find_line_nth. split.
  - intros (i & -> & H). apply file_lines_at in H; [exact H|intros []].
  - intros H. destruct n as [|n]; [inversion H|]. exists n. split; [reflexivity|]. apply file_lines_at; [intros []|exact H].
Qed.
Lemma no_line data n : find_line n 1 (file_lines [] data) = None <-> forall l, ~ line_at data n l.
Proof.
  split.
  - intros E l H. apply reported_line in H. congruence.
  - intros H. destruct (find_line n 1 _) as [l|] eqn:E; [|reflexivity]. apply reported_line in E. now apply H in E.
Qed.
Lemma skip_opened data : opened data (skip_spaces data).
Proof.
  induction data as [|x data (p & E & Hp & Hs)]; cbn [skip_spaces].
  - exists []. repeat split; [constructor|discriminate].
  - destruct (N.eqb_spec x BLANK) as [->|Hx].
    + exists (32%N :: p). cbn. rewrite <- E. repeat split; [now constructor|exact Hs].
    + exists []. repeat split; [constructor|]. intros r [= -> _]. now apply Hx.
Qed.
Lemma prefix_unique (P : N -> Prop) (p p' s s' : str) : p ++ s = p' ++ s' -> Forall P p -> Forall P p' ->
  (forall x r, s = x :: r -> ~ P x) -> (forall x r, s' = x :: r -> ~ P x) -> s = s'.
Proof.
  revert p'. induction p as [|x p IH]; intros [|y p'] E Hp Hp' Hs Hs'; cbn in E.
  - exact E.
  - inversion Hp'; subst. exfalso. eapply Hs; eauto.
  - inversion Hp; subst. exfalso. eapply Hs'; eauto.
  - injection E as <- E. inversion Hp; inversion Hp'; subst. eapply IH; eauto.
Qed.
Lemma opened_skip data s : opened data s -> s = skip_spaces data.
Proof.
  intros (p & E & Hp & Hs). destruct (skip_opened data) as (p' & E' & Hp' & Hs'). rewrite E in E' at 1.
  apply (prefix_unique (eq 32%N)) in E'; auto; [intros x r -> <-; eapply Hs; eauto|intros x r Q <-; eapply Hs'; eauto].
Qed.
(** Blanks before the document do not change the numbers of the lines: the line that is
    reported is the one of the parser, with these blanks if it is the first. *)
Theorem C92_line data s n l : opened data s -> line_at s n l ->
  exists p, Forall (eq 32%N) p /\ (n <> 1 -> p = []) /\ find_line n 1 (file_lines [] data) = Some (p ++ l).
Proof.
  intros (p & -> & Hp & _) H. assert (Q : no_lf p) by (intros Hin; rewrite Forall_forall in Hp; apply Hp in Hin; discriminate).
  destruct (Nat.eq_dec n 1) as [->|Hn].
  - exists p. repeat split; [exact Hp|lia|]. apply reported_line. inversion H as [l0 rest H0 E0|l0 H0 H1 E0|l0 rest n l' H0 H1 E0]; subst.
    + rewrite !app_assoc. constructor. intros Hin. apply in_app_iff in Hin as [?|?]; [now apply Q|now apply H0].
    + constructor; [|destruct p, l; try discriminate; now cbn]. intros Hin. apply in_app_iff in Hin as [?|?]; [now apply Q|now apply H0].
    + inversion H1.
  - exists []. repeat split; [constructor|]. apply reported_line. inversion H as [| |l0 rest n' l' H0 H1 E0]; subst; try contradiction.
    cbn [app]. rewrite app_assoc. constructor; [|exact H1]. intros Hin. apply in_app_iff in Hin as [?|?]; [now apply Q|now apply H0].
Qed.

(* ---------------------------------------------------------------- *)
(** ** Repair *)
Definition white (x : N) : Prop := In x [9; 10; 11; 12; 13; 32]%N.
(** without leading white space, and every dagger written as a number *)
Definition repaired (data data' : str) : Prop :=
  exists p s, data = p ++ s /\ Forall white p /\ (forall x r, s = x :: r -> ~ white x) /\ repl (u "&dagger;") (u "&#x2020;") s data'.
Lemma byte_space_white x : byte_space x = true <-> white x.
Proof.
  unfold byte_space, white. cbn [In]. rewrite orb_true_iff, andb_true_iff, !N.leb_le, N.eqb_eq. split.
  - intros [[H1 H2]| ->]; [|tauto]. assert (x = 9 \/ x = 10 \/ x = 11 \/ x = 12 \/ x = 13)%N by lia. intuition.
  - intros [<-|[<-|[<-|[<-|[<-|[<-|[]]]]]]]; [left; split; lia..|now right].
Qed.
Lemma lstrip_split s : exists p, s = p ++ lstrip byte_space s /\ Forall white p /\ forall x r, lstrip byte_space s = x :: r -> ~ white x.
Proof.
  induction s as [|x s (p & E & Hp & Hs)]; cbn [lstrip].
  - exists []. repeat split; [constructor|discriminate].
  - destruct (byte_space x) eqn:Ex.
    + exists (x :: p). cbn. rewrite <- E. repeat split; [constructor; [now apply byte_space_white|exact Hp]|exact Hs].
    + exists []. repeat split; [constructor|]. intros y r [= -> _] H. apply byte_space_white in H. congruence.
Qed.
Lemma repl_unique old new s s1 : old <> [] -> repl old new s s1 -> forall s2, repl old new s s2 -> s1 = s2.
Proof.
  intros Hne H. induction H as [|s s1 H IH|c s s1 E H IH]; intros s2 H2.
  - inversion H2 as [|s' s'' H' E1|]; [reflexivity|]. exfalso. apply app_eq_nil in E1 as [-> _]. now apply Hne.
  - remember (old ++ s) as q eqn:Eq. destruct H2 as [|s' s'' H'|c' s' s'' E' H'].
    + symmetry in Eq. apply app_eq_nil in Eq as [-> _]. contradiction.
    + apply app_inv_head in Eq as ->. f_equal. now apply IH.
    + exfalso. rewrite Eq in E'. assert (starts_with old (old ++ s) = true) by (apply starts_with_spec; now exists s). congruence.
  - remember (c :: s) as q eqn:Eq. destruct H2 as [|s' s'' H'|c' s' s'' E' H']; [discriminate| |].
    + exfalso. assert (starts_with old (old ++ s') = true) by (apply starts_with_spec; now exists s'). congruence.
    + injection Eq as -> ->. f_equal. now apply IH.
Qed.
Lemma repaired_spec data data' : repaired data data' <-> data' = fix_data data.
Proof.
  destruct (lstrip_split data) as (p & E & Hp & Hs). assert (Hd : u "&dagger;" <> []) by discriminate.
  split.
  - intros (p' & s & E' & Hp' & Hs' & R). rewrite E in E' at 1. apply (prefix_unique white) in E'; auto. subst s.
    exact (repl_unique _ _ _ _ Hd R _ (py_replace_repl _ _ _ Hd)).
  - intros ->. exists p, (lstrip byte_space data). repeat (split; [assumption|]). now apply py_replace_repl.
Qed.

(* ---------------------------------------------------------------- *)
(** ** Reading *)
Section Read.
Variable parse : str -> parsed.
Definition well_formed (data : str) (enc : ostr) (root : node) : Prop := exists s, opened data s /\ parse s = PDoc enc root.
(** a syntax error on one of the lines of the file (or another error that is a ValueError) *)
Definition malformed (data : str) : Prop := exists s, opened data s /\ ((exists n l, parse s = PSyntax n /\ line_at data n l) \/ parse s = POther ValueError).
Definition reads (data : str) (enc : ostr) (root : node) (repair : bool) : Prop :=
  if repair then malformed data /\ exists data', repaired data data' /\ well_formed data' enc root else well_formed data enc root.

Lemma parse_data_doc data enc root : parse_data parse data = inl (enc, root) <-> well_formed data enc root.
Proof.
  unfold parse_data, well_formed. split.
  - intros E. exists (skip_spaces data). split; [apply skip_opened|]. destruct (parse _) as [e r|n|x]; [congruence|destruct (find_line _ _ _); discriminate|discriminate].
  - intros (s & H & E). apply opened_skip in H as ->. now rewrite E.
Qed.
Lemma parse_data_bad data : (exists e, parse_data parse data = inr e /\ is_value_error e = true) <-> malformed data.
Proof.
  unfold parse_data, malformed. split.
  - intros (e & E & V). exists (skip_spaces data). split; [apply skip_opened|]. destruct (parse _) as [en r|n|x]; [discriminate| |].
    + left. destruct (find_line _ _ _) as [l|] eqn:El; [|injection E as <-; discriminate]. exists n, l. split; [reflexivity|]. now apply reported_line.
    + right. injection E as <-. destruct x; try discriminate. reflexivity.
  - intros (s & H & [(n & l & E & L)|E]); apply opened_skip in H as ->; rewrite E.
    + apply reported_line in L. rewrite L. now exists (XLine l).
    + now exists (XOther ValueError).
Qed.
(** A document is read as it is; or, if it is malformed, after repair.  *)
Theorem C92_reads data enc root b : read_jats parse data = inl (enc, root, b) <-> reads data enc root b.
Proof.
  unfold read_jats, parse_xml, reads. split.
  - destruct (parse_data parse data) as [[en r]|e] eqn:E.
    + intros [= <- <- <-]. now apply parse_data_doc.
    + destruct (is_value_error e) eqn:V; [|discriminate]. destruct (parse_data parse (fix_data data)) as [[en r]|e'] eqn:E'; [|discriminate]. intros [= <- <- <-].
      split; [apply parse_data_bad; eauto|]. exists (fix_data data). split; [now apply repaired_spec|now apply parse_data_doc].
  - destruct b.
    + intros (H & data' & R & W). apply parse_data_bad in H as (e & -> & ->). apply repaired_spec in R as ->. apply parse_data_doc in W. now rewrite W.
    + intros H. apply parse_data_doc in H. now rewrite H.
Qed.
(** Reading raises exactly if the file cannot be parsed and is not malformed, or cannot be
    parsed after repair. *)
Theorem C92_unreadable data : (exists e, read_jats parse data = inr e) <->
  (forall enc root, ~ well_formed data enc root) /\ (malformed data -> forall data' enc root, repaired data data' -> ~ well_formed data' enc root).
Proof.
  split.
  - intros (e & E). split.
    + intros enc root H. apply (C92_reads data enc root false) in H. congruence.
    + intros M data' enc root R W. assert (H : reads data enc root true) by (split; eauto). apply C92_reads in H. congruence.
  - intros [H1 H2]. destruct (read_jats parse data) as [[[enc root] b]|e] eqn:E; [|eauto]. apply C92_reads in E. exfalso. destruct b.
    + destruct E as (M & data' & R & W). eapply H2; eauto.
    + eapply H1; eauto.
Qed.
End Read.

(* ---------------------------------------------------------------- *)
(** ** One document *)
Section Document.
Variable j : jats_libs.
(** [refs_fixed] of C70, with these libraries *)
Definition only_refs_fixed : bool -> bool -> node -> node -> Prop :=
  refs_fixed (jl_sp j) (jl_wd j) (jl_dg j) (jl_token j) (jl_nopunct j) (jl_nopunct_space j) (jl_pii_valid j) (jl_pii_other j)
    (jl_pmid j) (jl_pmid_fix j) (jl_pmcid j) (jl_wos j) (jl_doi_prefix j) (jl_repeated j) (jl_lower j).
(** the references that are no longer written as before *)
Inductive differing : list node -> list node -> list node -> Prop :=
| diff_nil : differing [] [] []
| diff_same r r' l l' c : jl_tostring j r' = jl_tostring j r -> differing l l' c -> differing (r :: l) (r' :: l') c
| diff_other r r' l l' c : jl_tostring j r' <> jl_tostring j r -> differing l l' c -> differing (r :: l) (r' :: l') (r :: c).
(** with commas between *)
Definition commas (l : list str) : str := match l with [] => [] | s :: l' => s ++ flat_map (cons 44%N) l' end.
Definition entries (now : str) (repair : bool) (changed : list node) : list (str * str) :=
  [(u "fix-jats-note", u "This XML file had been modified to fix some of the potential errors."); (u "fix-jats-run-timestamp", now);
   (u "fix-jats-malformatted-xml", if repair then u "true" else u "false"); (u "fix-jats-changed-reference-count", jl_decimal j (length changed));
   (u "fix-jats-changed-reference-ids", commas (map (fun r => match attr (u "id") r with Some v => v | None => [] end) changed))].
Definition entry (kv : str * str) : node :=
  El None (u "custom-meta") [] None [El None (u "meta-name") [] (Some (fst kv)) [] None; El None (u "meta-value") [] (Some (snd kv)) [] None] (Some [10%N]).
(** the elements go to the end of the first group, or to a new one before everything else *)
Definition with_meta (added kids kids' : list node) : Prop :=
  ((forall c, In c kids -> named "custom-meta-group" c = false) /\ kids' = El None (u "custom-meta-group") [] (Some [10%N]) added (Some [10%N]) :: kids) \/
  exists before m a x inner t after, (forall c, In c before -> named "custom-meta-group" c = false) /\
    kids = before ++ El m (u "custom-meta-group") a x inner t :: after /\ kids' = before ++ El m (u "custom-meta-group") a x (inner ++ added) t :: after.
Definition fixed_document (now : str) (repair : bool) (root final : node) : Prop :=
  exists m nm a x kids t kids' kids'' changed, root = El m nm a x kids t /\ Forall2 (only_refs_fixed false false) kids kids' /\
    differing (refs root) (refs (El m nm a x kids' t)) changed /\ with_meta (map entry (entries now repair changed)) kids' kids'' /\ final = El m nm a x kids'' t.

Lemma differing_spec l l' c : length l' = length l ->
  map snd (filter (fun p => negb (streq (jl_tostring j (fst p)) (jl_tostring j (snd p)))) (combine l' l)) = c <-> differing l l' c.
Proof.
  revert l' c. induction l as [|r l IH]; intros [|r' l'] c Hl; try discriminate.
  - cbn. split; [intros <-; constructor|]. intros H. now inversion H.
  - injection Hl as Hl. cbn [combine filter fst snd]. destruct (streq (jl_tostring j r') (jl_tostring j r)) eqn:Es; cbn [negb map].
    + apply streq_true in Es. rewrite IH by assumption. split; [now constructor|]. intros H. inversion H; subst; [assumption|contradiction].
    + apply streq_false in Es. cbn [map snd]. split.
      * intros <-. apply diff_other; [exact Es|]. now apply IH.
      * intros H. inversion H as [|? ? ? ? ? H1 H2|? ? ? ? c' H1 H2]; subst; [contradiction|]. f_equal. now apply IH.
Qed.
Lemma join_commas l : join_comma l = commas l.
Proof.
  unfold commas. destruct l as [|s l]; [reflexivity|]. revert s. induction l as [|s' l IH]; intros s; [cbn; now rewrite app_nil_r|].
  change (join_comma (s :: s' :: l)) with (s ++ 44%N :: join_comma (s' :: l)). rewrite IH. reflexivity.
Qed.
Lemma append_group new kids : match append_to_group new kids with
  | None => forall c, In c kids -> named "custom-meta-group" c = false
  | Some kids' => exists before m a x inner t after, (forall c, In c before -> named "custom-meta-group" c = false) /\
      kids = before ++ El m (u "custom-meta-group") a x inner t :: after /\ kids' = before ++ El m (u "custom-meta-group") a x (inner ++ new) t :: after
  end.
Proof.
  induction kids as [|c kids IH]; cbn [append_to_group]; [intros c []|]. destruct (named "custom-meta-group" c) eqn:En.
  - destruct c as [m nm a x inner t|t]; [|discriminate]. cbn [named] in En. apply streq_true in En as ->. exists [], m, a, x, inner, t, kids. repeat split. intros c [].
  - destruct (append_to_group new kids) as [kids'|]; cbn [option_map].
    + destruct IH as (before & m & a & x & inner & t & after & H1 & -> & ->). exists (c :: before), m, a, x, inner, t, after. repeat split. intros d [<-|H]; auto.
    + intros d [<-|H]; auto.
Qed.
Lemma group_unique before m a x inner t after before' m' a' x' inner' t' after' :
  (forall c, In c before -> named "custom-meta-group" c = false) -> (forall c, In c before' -> named "custom-meta-group" c = false) ->
  before ++ El m (u "custom-meta-group") a x inner t :: after = before' ++ El m' (u "custom-meta-group") a' x' inner' t' :: after' ->
  before = before' /\ El m (u "custom-meta-group") a x inner t = El m' (u "custom-meta-group") a' x' inner' t' /\ after = after'.
Proof.
  revert before'. induction before as [|c before IH]; intros [|c' before'] H H' E; cbn [app] in E; injection E as E1 E2.
  - intros. repeat split; congruence.
  - exfalso. subst c'. specialize (H' _ (or_introl eq_refl)). discriminate.
  - exfalso. subst c. specialize (H _ (or_introl eq_refl)). discriminate.
  - subst c'. destruct (IH before') as (-> & -> & ->); auto; [intros d Hd; apply H; now right|intros d Hd; apply H'; now right].
Qed.
Lemma add_meta_spec data m nm a x kids t kids' : data <> [] ->
  (add_meta data (El m nm a x kids t) = El m nm a x kids' t <-> with_meta (map entry data) kids kids').
Proof.
  intros Hd. destruct data as [|d data]; [contradiction|]. cbn [add_meta]. change (map meta_element (d :: data)) with (map entry (d :: data)). set (new := map entry (d :: data)).
  pose proof (append_group new kids) as A. change NEWLINE with 10%N. unfold with_meta. destruct (append_to_group new kids) as [k|].
  - destruct A as (before & m0 & a0 & x0 & inner & t0 & after & H1 & H2 & H3). split.
    + intros [= <-]. right. exists before, m0, a0, x0, inner, t0, after. auto.
    + intros [[H4 H5]|(before' & m' & a' & x' & inner' & t' & after' & H4 & H5 & H6)].
      * exfalso. specialize (H4 (El m0 (u "custom-meta-group") a0 x0 inner t0)). rewrite H2 in H4. specialize (H4 (in_elt _ _ _)). discriminate.
      * rewrite H2 in H5. apply group_unique in H5 as (-> & E & ->); auto. injection E as -> -> -> -> ->. now subst.
  - split.
    + intros [= <-]. left. auto.
    + intros [[_ ->]|(before' & m' & a' & x' & inner' & t' & after' & H4 & -> & _)]; [reflexivity|]. exfalso.
      specialize (A (El m' (u "custom-meta-group") a' x' inner' t') (in_elt _ _ _)). discriminate.
Qed.
Notation fix_el := (fix_element (jl_sp j) (jl_wd j) (jl_dg j) (jl_token j) (jl_nopunct j) (jl_nopunct_space j) (jl_pii_valid j) (jl_pii_other j)
    (jl_pmid j) (jl_pmid_fix j) (jl_pmcid j) (jl_wos j) (jl_doi_prefix j) (jl_repeated j) (jl_lower j)).
Notation fix_els := (fix_kids (jl_sp j) (jl_wd j) (jl_dg j) (jl_token j) (jl_nopunct j) (jl_nopunct_space j) (jl_pii_valid j) (jl_pii_other j)
    (jl_pmid j) (jl_pmid_fix j) (jl_pmcid j) (jl_wos j) (jl_doi_prefix j) (jl_repeated j) (jl_lower j)).
Lemma fixed_elements ib ir kids kids' : Forall (fun c => forall ib ir c', only_refs_fixed ib ir c c' -> fix_el ib ir c = Ok c') kids ->
  Forall2 (only_refs_fixed ib ir) kids kids' -> fix_els ib ir kids = Ok kids'.
Proof.
  intros Ha. revert kids'. induction Ha as [|c kids H1 H2 IH]; intros kids' H; inversion H as [|? c' ? l' H3 H4]; subst; [reflexivity|].
  change (bind (fix_el ib ir c) (fun c0 => bind (fix_els ib ir kids) (fun l0 => Ok (c0 :: l0))) = Ok (c' :: l')).
  rewrite (H1 _ _ _ H3). cbn [bind]. rewrite (IH _ H4). reflexivity.
Qed.
Lemma fixed_element e : forall ib ir e', only_refs_fixed ib ir e e' -> fix_el ib ir e = Ok e'.
Proof.
  induction e as [m nm a x kids t IH|t] using node_ind'; intros ib ir e' H; inversion H; subst; cbn [ModelJats.fix_element]; [| |reflexivity].
  - rewrite streq_refl. assumption.
  - assert (Er : ir && streq nm (u "ref") = false) by (match goal with H : _ \/ _ |- _ => destruct H as [->|Q]; [reflexivity|apply streq_false in Q; rewrite Q; apply andb_false_r] end).
    rewrite Er. match goal with Hk : Forall2 _ kids ?k |- _ => pose proof (fixed_elements _ _ kids k IH Hk) as Q end. unfold fix_kids in Q. rewrite Q. reflexivity.
Qed.
Lemma fix_root_spec m nm a x kids t root' : fix_root j (El m nm a x kids t) = Ok root' <->
  exists kids', root' = El m nm a x kids' t /\ Forall2 (only_refs_fixed false false) kids kids'.
Proof.
  split; [apply C70_outside|]. intros (kids' & -> & H). unfold fix_root. cbn [fix_jats_xml_node].
  assert (Q : fix_els false false kids = Ok kids') by (apply fixed_elements; [apply Forall_forall; intros c _; apply fixed_element|exact H]).
  unfold fix_kids in Q. rewrite Q. reflexivity.
Qed.
Lemma fix_root_count root root' : fix_root j root = Ok root' -> length (refs root) = length (refs root').
Proof. unfold fix_root. intros H. eapply Forall2_len, C70_references, H. Qed.
(** What becomes of a document. *)
Theorem C92_document now repair root final : fix_document j now repair root = Ok final <-> fixed_document now repair root final.
Proof.
  unfold fixed_document. destruct root as [m nm a x kids t|t]; cbn [fix_document]; [|split; [discriminate|intros (? & ? & ? & ? & ? & ? & ? & ? & ? & ? & _); discriminate]].
  split.
  - destruct (fix_root j (El m nm a x kids t)) as [root'|] eqn:E; [|discriminate]. cbn [bind]. pose proof E as E0. apply fix_root_count in E0.
    apply fix_root_spec in E as (kids' & -> & H). unfold meta_data, changed_references. rewrite E0, Nat.eqb_refl. cbn [bind]. set (data := _ :: _). intros Q. assert (Qf : final = add_meta data (El m nm a x kids' t)) by congruence. clear Q. subst final.
    assert (A : exists kids'', add_meta data (El m nm a x kids' t) = El m nm a x kids'' t) by (unfold data; cbn [add_meta]; destruct (append_to_group _ _); eauto).
    destruct A as [kids'' A]. rewrite A. set (changed := map snd _) in *. exists m, nm, a, x, kids, t, kids', kids'', changed.
    split; [reflexivity|]. split; [exact H|]. split; [apply differing_spec; [now symmetry|reflexivity]|]. split; [|reflexivity].
    assert (D : data = entries now repair changed) by (unfold data, entries, NOTE, flag, ref_id, otext; rewrite join_commas; reflexivity). rewrite <- D.
    apply (add_meta_spec data m nm a x kids' t); [discriminate|exact A].
  - intros (m' & nm' & a' & x' & kids0 & t' & kids' & kids'' & changed & E & H & D & W & ->). injection E as <- <- <- <- <- <-.
    pose proof (proj2 (fix_root_spec m nm a x kids t _) (ex_intro _ kids' (conj eq_refl H))) as F. rewrite F. cbn [bind]. apply fix_root_count in F.
    unfold meta_data, changed_references. rewrite F, Nat.eqb_refl. cbn [bind]. apply differing_spec in D; [|now symmetry]. rewrite D. f_equal.
    assert (Q : [(u "fix-jats-note", NOTE); (u "fix-jats-run-timestamp", now); (u "fix-jats-malformatted-xml", flag repair);
      (u "fix-jats-changed-reference-count", jl_decimal j (length changed)); (u "fix-jats-changed-reference-ids", join_comma (map ref_id changed))] = entries now repair changed)
      by (unfold entries, NOTE, flag, ref_id, otext; rewrite join_commas; reflexivity).
    rewrite Q. apply add_meta_spec; [discriminate|exact W].
Qed.
(** It can be fixed if its references can. *)
Theorem C92_fixable now repair m nm a x kids t : (forall r, In r (refs (El m nm a x kids t)) -> exists r', fix_ref j r = Ok r') ->
  exists final, fixed_document now repair (El m nm a x kids t) final.
Proof.
  intros H. assert (K : forall e ib ir, (forall r, In r (refs_below ib ir e) -> exists r', fix_ref j r = Ok r') -> exists e', only_refs_fixed ib ir e e').
  { induction e as [m0 nm0 a0 x0 kids0 t0 IH|t0] using node_ind'; intros ib ir Hr; [|exists (Mi t0); constructor]. cbn [refs_below] in Hr. destruct (ir && streq nm0 (u "ref")) eqn:Er.
    - apply andb_true_iff in Er as [-> Er]. apply streq_true in Er. destruct (Hr _ (or_introl eq_refl)) as [r' E]. exists r'. now constructor.
    - assert (Q : exists kids', Forall2 (only_refs_fixed (streq nm0 (u "back")) (ib && streq nm0 (u "ref-list"))) kids0 kids').
      { clear Er. induction IH as [|c kids0 H1 H2 IH2]; [exists []; constructor|]. cbn [flat_map] in Hr. destruct (H1 (streq nm0 (u "back")) (ib && streq nm0 (u "ref-list"))) as [c' Hc'].
        - intros r Hin. apply Hr. apply in_or_app. now left.
        - destruct IH2 as [kids' Hk]; [intros r Hin; apply Hr; apply in_or_app; now right|]. exists (c' :: kids'). now constructor. }
      destruct Q as [kids' Q]. exists (El m0 nm0 a0 x0 kids' t0). apply fixed_el; [|exact Q]. apply andb_false_iff in Er as [->|Er]; [now left|]. right. now apply streq_false. }
  assert (Q : exists kids', Forall2 (only_refs_fixed false false) kids kids').
  { cbn [refs] in H. induction kids as [|c kids IHk]; [exists []; constructor|]. cbn [flat_map] in H. destruct (K c false false) as [c' Hc]; [intros r Hr; apply H, in_or_app; now left|].
    destruct IHk as [kids' Hk]; [intros r Hr; apply H, in_or_app; now right|]. exists (c' :: kids'). now constructor. }
  destruct Q as [kids' Q]. pose proof (proj2 (fix_root_spec m nm a x kids t _) (ex_intro _ kids' (conj eq_refl Q))) as F.
  enough (exists final, fix_document j now repair (El m nm a x kids t) = Ok final) as [final E] by (exists final; now apply C92_document).
  cbn [fix_document]. rewrite F. cbn [bind]. apply fix_root_count in F. unfold meta_data, changed_references. rewrite F, Nat.eqb_refl. cbn [bind]. eauto.
Qed.
(** The text of the document stays as it is, with the text of the meta data in it, if the
    references keep theirs. *)
Theorem C92_text now repair root final : fixed_document now repair root final ->
  (forall r r', In r (refs root) -> fix_ref j r = Ok r' -> content r' = content r) ->
  exists before after changed group, content root = before ++ after /\ content final = before ++ group ++ after /\
    (group = flow (map entry (entries now repair changed)) \/ group = 10%N :: flow (map entry (entries now repair changed)) ++ [10%N]).
Proof.
  intros (m & nm & a & x & kids & t & kids' & kids'' & changed & -> & H & _ & W & ->) Hr.
  assert (F : fix_root j (El m nm a x kids t) = Ok (El m nm a x kids' t)) by (apply fix_root_spec; eauto).
  assert (C : content (El m nm a x kids' t) = content (El m nm a x kids t)) by (revert F Hr; apply C70_content). rewrite <- C. clear C F Hr H.
  rewrite !content_eq. destruct W as [[_ ->]|(before & m' & a' & x' & inner & t' & after & _ & -> & ->)].
  - exists (otext x), (flow kids'), changed. eexists. split; [reflexivity|]. split; [|right; reflexivity]. f_equal.
  - exists (otext x ++ flow before ++ otext x' ++ flow inner), (otext t' ++ flow after), changed. eexists. split; [|split; [|left; reflexivity]].
    + rewrite flow_app, flow_cons, content_eq. cbn [ntail]. rewrite <- !app_assoc. reflexivity.
    + rewrite flow_app, flow_cons, content_eq, flow_app. cbn [ntail]. rewrite <- !app_assoc. reflexivity.
Qed.
End Document.

(* ---------------------------------------------------------------- *)
(** ** Files *)
Section Files.
Variable j : jats_libs.
Variable output base : str.
(** the files before the run *)
Variable f0 : files.
Definition out_of (src : str) : str := join_path output (jl_relative j base src).
(** [s] is the fixed document of the source *)
Definition fixes (src s : str) : Prop := out_of src <> src /\ exists data enc root repair final,
  f0 src = Some data /\ reads (jl_parse j) data enc root repair /\ fixed_document j (jl_now j src) repair root final /\ jl_write j enc final = Ok s.

Lemma fix_file_spec now data s : fix_file j now data = Ok s <->
  exists enc root repair final, reads (jl_parse j) data enc root repair /\ fixed_document j now repair root final /\ jl_write j enc final = Ok s.
Proof.
  unfold fix_file. split.
  - destruct (read_jats (jl_parse j) data) as [[[enc root] repair]|e] eqn:E; [|discriminate]. apply C92_reads in E.
    destruct (fix_document j now repair root) as [final|] eqn:F; [|discriminate]. apply C92_document in F. cbn [bind]. intros W. exists enc, root, repair, final. auto.
  - intros (enc & root & repair & final & R & D & W). apply C92_reads in R. rewrite R. apply C92_document in D. rewrite D. exact W.
Qed.
Lemma outcome_fixes src : match outcome_of (process_source j output base) None (fix_task j output base src) f0 with
  | OSave s => fixes src s | OReject _ => False | OFail => forall s, ~ fixes src s end.
Proof.
  unfold outcome_of, fixes. cbn [tk_src fix_task final_source]. destruct (f0 src) as [data|] eqn:Ef.
  - unfold process_source. change (output_for j output base src) with (out_of src). destruct (streq (out_of src) src) eqn:Es.
    + apply streq_true in Es. intros s [H _]. now apply H.
    + apply streq_false in Es. destruct (fix_file j (jl_now j src) data) as [s|e] eqn:E.
      * apply fix_file_spec in E as (enc & root & repair & final & R & D & W). split; [exact Es|]. exists data, enc, root, repair, final. auto.
      * intros s (_ & data' & enc & root & repair & final & E1 & R & D & W). assert (data' = data) as -> by congruence.
        assert (fix_file j (jl_now j src) data = Ok s) by (apply fix_file_spec; eauto 8). congruence.
  - intros s (_ & data & ? & ? & ? & ? & E & _). discriminate.
Qed.

Variable srcs : list str.
Variable workers : nat.
Variable multi_processing : bool.
Let tasks := map (fix_task j output base) srcs.
Let run := fix_steps j output base srcs workers multi_processing.

(** *** Without assumptions about the paths *)
(** C93: no source is changed.  Not so if it is the output of another source
    ([C93_refuted]): a file changes only if it is the output of a source other than itself. *)
Theorem C93_partial k w p : run k (initial tasks f0) w -> (forall src, In src srcs -> p = out_of src -> p = src) -> w_files w p = f0 p.
Proof.
  intros Hk Hp. pose (safe := fun q => exists src, In src srcs /\ q = out_of src /\ q <> src).
  assert (I : (forall i, match w_place w i with Save q _ | Writing q _ _ => safe q | _ => True end) /\ forall q, ~ safe q -> w_files w q = f0 q).
  { clear p Hp. remember (initial tasks f0) as w0 eqn:E0. unfold run, fix_steps in Hk. fold tasks in Hk. induction Hk as [w|n w w1 w2 H IH Hs]; [subst; split; [intros i; exact I|reflexivity]|].
    destruct (IH E0) as [I1 I2]. clear IH H.
    assert (Set_ : forall i pl, match pl with Save q _ | Writing q _ _ => safe q | _ => True end ->
      forall i', match set_at (w_place w1) i pl i' with Save q _ | Writing q _ _ => safe q | _ => True end).
    { intros i pl Hpl i'. unfold set_at. destruct (Nat.eqb i' i); [exact Hpl|apply I1]. }
    destruct Hs as [i q w1 Hq Hr|i t w1 w2 Hi Ht].
    - split; [cbn [w_place]; now apply (Set_ i Start)|exact I2].
    - unfold tasks in Hi. rewrite nth_error_map in Hi. destruct (nth_error srcs i) as [src|] eqn:Es; [|discriminate]. injection Hi as <-. apply nth_error_In in Es.
      unfold task_step in Ht. pose proof (I1 i) as Ii. destruct (w_place w1 i) as [| | |q c|q dn rest|e|e] eqn:Ep; try discriminate.
      + injection Ht as <-. split; [now apply (Set_ i Load)|exact I2].
      + destruct (w_files w1 (tk_src (fix_task j output base src))) as [c|]; [|injection Ht as <-; split; [now apply (Set_ i (Close true))|exact I2]].
        cbn [tk_src fix_task] in Ht. unfold process_source in Ht. change (output_for j output base src) with (out_of src) in Ht.
        destruct (streq (out_of src) src) eqn:Eo; [injection Ht as <-; split; [now apply (Set_ i (Close true))|exact I2]|]. apply streq_false in Eo.
        destruct (fix_file j (jl_now j src) c) as [s|]; [|injection Ht as <-; split; [now apply (Set_ i (Close true))|exact I2]].
        cbn [save_target] in Ht. injection Ht as <-. split; [|exact I2]. apply (Set_ i (Save (out_of src) s)). exists src. auto.
      + injection Ht as <-. split; [apply (Set_ i (Writing q [] c)); exact Ii|]. cbn [w_files]. intros q' Hq'. rewrite upd_other; [now apply I2|]. intros ->. contradiction.
      + destruct rest as [|y rest]; injection Ht as <-; (split; [|]).
        * now apply (Set_ i (Close false)).
        * exact I2.
        * apply (Set_ i (Writing q (dn ++ [y]) rest)). exact Ii.
        * cbn [w_files]. intros q' Hq'. rewrite upd_other; [now apply I2|]. intros ->. contradiction.
      + destruct (w_stack w1 _) as [|j0 st]; injection Ht as <-; (split; [|exact I2]); [now apply (Set_ i (Done e))|exact I1]. }
  apply (proj2 I). intros (src & H1 & H2 & H3). apply H3, (Hp src H1 H2).
Qed.
(** So a run on one file never changes it. *)
Corollary C93_single k w src : srcs = [src] -> run k (initial tasks f0) w -> w_files w src = f0 src.
Proof. intros Hs Hk. apply (C93_partial k w src Hk). rewrite Hs. intros ? [<-|[]] _. reflexivity. Qed.

(** *** Each source on its own *)
Hypothesis Houts : NoDup (map out_of srcs).
(** no source is an output *)
Hypothesis Hsources : forall src src', In src srcs -> In src' srcs -> src <> out_of src'.
Lemma fix_apart : apart tasks.
Proof.
  intros n n' t t' p Hi Hi' Hp Hp'. unfold tasks in *. rewrite nth_error_map in Hi, Hi'. destruct (nth_error srcs n) as [s|] eqn:E; [|discriminate]. destruct (nth_error srcs n') as [s'|] eqn:E'; [|discriminate].
  injection Hi as <-. injection Hi' as <-. destruct Hp as [<-|[]]. destruct Hp' as [Hp'|[]]. change (out_of s' = out_of s) in Hp'.
  apply (proj1 (NoDup_nth_error (map out_of srcs)) Houts).
  - rewrite map_length. apply nth_error_Some. congruence.
  - rewrite !nth_error_map, E, E'. cbn. now rewrite Hp'.
Qed.
Lemma fix_kept : sources_kept tasks.
Proof.
  intros t t' Ht Ht' Hp. unfold tasks in *. apply in_map_iff in Ht as (s & <- & Hs). apply in_map_iff in Ht' as (s' & <- & Hs').
  destruct Hp as [Hp|[]]. now apply (Hsources s s').
Qed.
(** At the end of a run, with any workers, each source has been fixed and saved, or it
    cannot be fixed, its task has failed, and its output is as before. *)
Theorem C92_run k w n src : run k (initial tasks f0) w -> finished tasks w -> nth_error srcs n = Some src ->
  (exists s, fixes src s /\ w_place w n = Done false /\ w_files w (out_of src) = Some s) \/
  ((forall s, ~ fixes src s) /\ w_place w n = Done true /\ w_files w (out_of src) = f0 (out_of src)).
Proof.
  intros Hk Hf Hn. assert (Ht : nth_error tasks n = Some (fix_task j output base src)) by (unfold tasks; now rewrite nth_error_map, Hn).
  destruct (C45_alone (process_source j output base) None tasks workers (negb multi_processing) f0 fix_apart fix_kept k w n _ (or_intror (or_introl eq_refl)) Hk Hf Ht) as (e & E & E1 & E2).
  specialize (E2 (out_of src) (or_introl eq_refl)). pose proof (outcome_fixes src) as Q. unfold auto_annotate in E1, E2. cbn [fst snd] in E1, E2.
  destruct (outcome_of _ None (fix_task j output base src) f0) as [s|s|]; cbn [save_target] in E2; [|contradiction|].
  - left. exists s. split; [exact Q|]. subst e. split; [exact E|]. rewrite E2. apply upd_same.
  - right. split; [exact Q|]. subst e. split; [exact E|exact E2].
Qed.
(** Other files stay as they are, all the time. *)
Theorem C92_others k w p : run k (initial tasks f0) w -> (forall src, In src srcs -> p <> out_of src) -> w_files w p = f0 p.
Proof. intros Hk Hp. apply (C93_partial k w p Hk). intros src Hs E. exfalso. now apply (Hp src). Qed.
(** The run raises exactly if a source cannot be fixed. *)
Theorem C92_fails k w : run k (initial tasks f0) w -> finished tasks w ->
  (fix_run_fails j output base srcs w = true <-> exists src, In src srcs /\ forall s, ~ fixes src s).
Proof.
  intros Hk Hf. unfold fix_run_fails. fold tasks.
  rewrite (C45_run (process_source j output base) None tasks workers (negb multi_processing) f0 fix_apart fix_kept k w false (or_intror (or_introl eq_refl)) Hk Hf). cbn [negb andb].
  rewrite existsb_exists. split.
  - intros (t & Ht & E). unfold tasks in Ht. apply in_map_iff in Ht as (src & <- & Hs). exists src. split; [exact Hs|]. pose proof (outcome_fixes src) as Q.
    destruct (outcome_of _ None (fix_task j output base src) f0); try discriminate. exact Q.
  - intros (src & Hs & H). exists (fix_task j output base src). split; [unfold tasks; now apply in_map|]. pose proof (outcome_fixes src) as Q.
    destruct (outcome_of _ None (fix_task j output base src) f0); [exfalso; now apply (H c)|contradiction|reflexivity].
Qed.
End Files.

(* ---------------------------------------------------------------- *)
(** ** Paths *)
(** [relative_path] for a source below the base directory *)
Definition below_base (relative : str -> str -> str) (base src : str) : Prop :=
  exists r, src = as_dir base ++ r /\ relative base src = r /\ forall r', r <> SLASH :: r'.
Lemma join_below a b : (forall r, b <> SLASH :: r) -> join_path a b = as_dir a ++ b.
Proof.
  intros H. unfold join_path, as_dir. assert (E : match b with x :: _ => N.eqb x SLASH | [] => false end = false).
  { destruct b as [|x b]; [reflexivity|]. apply N.eqb_neq. intros ->. now apply (H b). }
  rewrite E. destruct a as [|y a]; [reflexivity|]. destruct (ends_with_slash (y :: a)); [reflexivity|]. now rewrite <- app_assoc.
Qed.
(** Different sources below the base directory have different outputs, also with the same
    file name; and no source is an output if none of the directories is below the other. *)
Theorem C92_paths j output base srcs : NoDup srcs -> (forall src, In src srcs -> below_base (jl_relative j) base src) ->
  NoDup (map (out_of j output base) srcs) /\
  ((forall r, as_dir output <> as_dir base ++ r) -> (forall r, as_dir base <> as_dir output ++ r) ->
   forall src src', In src srcs -> In src' srcs -> src <> out_of j output base src').
Proof.
  intros Hn Hb. assert (O : forall src, In src srcs -> exists r, src = as_dir base ++ r /\ out_of j output base src = as_dir output ++ r).
  { intros src Hs. destruct (Hb src Hs) as (r & E & R & Hr). exists r. split; [exact E|]. unfold out_of. rewrite R. now apply join_below. }
  split.
  - clear Hb. induction Hn as [|s srcs H1 H2 IH]; [constructor|]. cbn [map]. constructor; [|apply IH; intros src Hs; apply O; now right].
    intros Hin. apply in_map_iff in Hin as (s' & E & Hs'). destruct (O s (or_introl eq_refl)) as (r & E1 & E2). destruct (O s' (or_intror Hs')) as (r' & E3 & E4).
    rewrite E2, E4 in E. apply app_inv_head in E. subst r'. apply H1. now rewrite E1, <- E3.
  - intros H1 H2 src src' Hs Hs' E. destruct (O src Hs) as (r & -> & _). destruct (O src' Hs') as (r' & _ & E2). rewrite E2 in E.
    apply app_eq_app in E as (l & [[E _]|[E _]]); [now apply (H2 l)|now apply (H1 l)].
Qed.

Lemma split_last_none c p : split_last c p = None <-> ~ In c p.
Proof.
  induction p as [|x p IH]; cbn [split_last]; [split; [intros _ []|reflexivity]|]. destruct (split_last c p) as [[a b]|] eqn:E.
  - split; [discriminate|]. intros H. exfalso. apply H. right. destruct (in_dec N.eq_dec c p) as [Hi|Hi]; [exact Hi|]. apply IH in Hi. discriminate.
  - destruct (N.eqb_spec x c) as [->|Hx]; [split; [discriminate|intros H; exfalso; apply H; now left]|]. split; [|reflexivity]. intros _ [Hin|Hin]; [contradiction|now apply IH].
Qed.
Lemma drop_while_nil f s : drop_while f s = [] -> forallb f s = true.
Proof. induction s as [|x s IH]; [reflexivity|]. cbn. destruct (f x); [exact IH|discriminate]. Qed.
Lemma dirname_nil p : dirname p = [] <-> ~ In SLASH p.
Proof.
  rewrite <- split_last_none. unfold dirname. destruct (split_last SLASH p) as [[a b]|]; [|split; reflexivity]. split; [|discriminate].
  destruct (forallb is_slash (a ++ [SLASH])) eqn:E; [destruct a; discriminate|]. unfold rstrip_slash. intros H. apply (f_equal (@rev N)) in H. rewrite rev_involutive in H. cbn [rev] in H.
  apply drop_while_nil in H. exfalso. enough (forallb is_slash (a ++ [SLASH]) = true) by congruence. apply forallb_forall. intros x Hx. rewrite forallb_forall in H. apply H. now apply -> in_rev.
Qed.
(** C94: any of the options gives a base directory.  This fails for a list of files in the
    current directory ([C94_refuted]); what is needed: a base directory, a list with a directory
    in its path, or a single source. *)
Theorem C94_partial base list_path source_path : (exists dir, source_base base list_path source_path = Ok dir) <->
  (exists b, base = Some b /\ b <> []) \/ (exists l, list_path = Some l /\ In SLASH l) \/ source_path <> None.
Proof.
  assert (D : (match list_path with Some ((_ :: _) as l) => dirname l | _ => [] end <> []) <-> exists l, list_path = Some l /\ In SLASH l).
  { destruct list_path as [[|y l]|].
    - split; [easy|]. intros (l & [= <-] & []).
    - split.
      + intros H. exists (y :: l). split; [reflexivity|]. destruct (in_dec N.eq_dec SLASH (y :: l)) as [Hi|Hi]; [exact Hi|]. now apply dirname_nil in Hi.
      + intros (l' & [= <-] & H) E. now apply dirname_nil in E.
    - split; [easy|]. intros (l & H & _). discriminate. }
  unfold source_base. destruct (truthy base) eqn:Et.
  - split; [|eauto]. intros _. left. destruct base as [[|x b]|]; try discriminate. exists (x :: b). split; [reflexivity|discriminate].
  - assert (Nb : ~ exists b, base = Some b /\ b <> []) by (intros (b & -> & H); destruct b; [now apply H|discriminate]).
    cbv zeta. destruct (match list_path with Some ((_ :: _) as l) => dirname l | _ => [] end) as [|z d].
    + assert (Nl : ~ exists l, list_path = Some l /\ In SLASH l) by (intros H; apply D in H; now apply H). destruct source_path as [q|].
      * split; [right; right; discriminate|eauto].
      * split; [intros [dir H]; discriminate|]. intros [H|[H|H]]; [contradiction|contradiction|now destruct H].
    + split; [|eauto]. intros _. right. left. apply D. discriminate.
Qed.
(** the directory of a path: what is before its last slash, without slashes at the end (unless
    there are only slashes) *)
Inductive dir_of : str -> str -> Prop :=
| dir_none p : ~ In SLASH p -> dir_of p []
| dir_root k name : ~ In SLASH name -> dir_of (repeat SLASH (S k) ++ name) (repeat SLASH (S k))
| dir_some d x k name : x <> SLASH -> ~ In SLASH name -> dir_of ((d ++ [x]) ++ repeat SLASH (S k) ++ name) (d ++ [x]).
Lemma slashes l : forallb is_slash l = true -> l = repeat SLASH (length l).
Proof. induction l as [|x l IH]; [reflexivity|]. cbn [forallb length repeat]. intros H. apply andb_true_iff in H as [H1 H2]. apply N.eqb_eq in H1. subst x. f_equal. now apply IH. Qed.
Lemma drop_while_app f s : exists p, s = p ++ drop_while f s /\ forallb f p = true /\ match drop_while f s with x :: _ => f x = false | [] => True end.
Proof.
  induction s as [|x s (p & IH1 & IH2 & IH3)]; [exists []; repeat split|]. cbn [drop_while]. destruct (f x) eqn:E.
  - exists (x :: p). cbn. rewrite E, IH2, <- IH1. repeat split. exact IH3.
  - exists []. repeat split. exact E.
Qed.
Lemma dirname_dir p : dir_of p (dirname p).
Proof.
  unfold dirname. destruct (split_last SLASH p) as [[a b]|] eqn:E; [|constructor; now apply split_last_none].
  apply PropDownload.split_last_some in E as [-> (name & -> & Hn)]. cbv zeta. change (SLASH :: name) with ([SLASH] ++ name). rewrite app_assoc.
  set (head := a ++ [SLASH]). destruct (forallb is_slash head) eqn:F.
  - apply slashes in F. rewrite F. unfold head. rewrite app_length, Nat.add_comm. cbn [length Nat.add]. now constructor.
  - unfold rstrip_slash. destruct (drop_while_app is_slash (rev head)) as (q & Q1 & Q2 & Q3). set (r := drop_while is_slash (rev head)) in *.
    assert (Eh : head = rev r ++ rev q) by (rewrite <- rev_app_distr, <- Q1; symmetry; apply rev_involutive).
    assert (Fq : forallb is_slash (rev q) = true). { apply forallb_forall. intros x Hx. apply in_rev in Hx. rewrite forallb_forall in Q2. now apply Q2. }
    destruct r as [|x r']; [cbn [rev app] in Eh; rewrite <- Eh in Fq; congruence|]. cbn [rev] in Eh |- *.
    apply slashes in Fq. destruct q as [|y q'] eqn:Eq.
    + exfalso. cbn [rev] in Eh. rewrite app_nil_r in Eh. unfold head in Eh. apply app_inj_tail in Eh as [_ <-]. discriminate.
    + rewrite Eh, Fq, rev_length. cbn [length]. rewrite <- app_assoc. apply dir_some; [|exact Hn]. intros ->. discriminate.
Qed.
(** Which directory it is. *)
Theorem C94_base base list_path source_path dir : source_base base list_path source_path = Ok dir ->
  (base = Some dir /\ dir <> []) \/
  ((base = None \/ base = Some []) /\
   ((exists l, list_path = Some l /\ In SLASH l /\ dir_of l dir) \/
    ((forall l, list_path = Some l -> ~ In SLASH l) /\ exists p, source_path = Some p /\ dir_of p dir))).
Proof.
  intros H. unfold source_base in H. destruct base as [[|x b]|]; cbn [truthy otext] in H; cbv zeta in H;
  [right; split; [now right|]|left; assert (dir = x :: b) by congruence; subst dir; split; [reflexivity|discriminate]|right; split; [now left|]];
  (destruct (match list_path with Some ((_ :: _) as l) => dirname l | _ => [] end) as [|y d] eqn:El;
  [right; split;
    [intros l -> Hin; destruct l as [|z l]; [destruct Hin|]; now apply dirname_nil in El
    |destruct source_path as [p|]; [|discriminate]; exists p; split; [reflexivity|]; assert (dir = dirname p) by congruence; subst dir; apply dirname_dir]
  |left; destruct list_path as [[|z l]|]; try discriminate; exists (z :: l); split; [reflexivity|]; assert (dir = dirname (z :: l)) by congruence; subst dir; split; [|apply dirname_dir];
   destruct (in_dec N.eq_dec SLASH (z :: l)) as [Hi|Hi]; [exact Hi|]; apply dirname_nil in Hi; congruence]).
Qed.
Example C94_ex_base : dir_of (u "in//a.xml") (u "in") /\ source_base None (Some (u "files.tsv")) (Some (u "in//a.xml")) = Ok (u "in").
Proof. split; [|reflexivity]. exact (dir_some (u "i") 110%N 1 (u "a.xml") ltac:(discriminate) ltac:(cbn; intuition discriminate)). Qed.
(** A list of files alone is not enough: in the current directory it has no directory. *)
Theorem C94_refuted : exists l, l <> [] /\ source_base None (Some l) None = Err TypeError.
Proof. exists (u "files.tsv"). split; [discriminate|reflexivity]. Qed.

(* ---------------------------------------------------------------- *)
(** ** Examples *)
Open Scope string_scope.
Open Scope list_scope.
Open Scope nat_scope.
Example C92_ex_line : opened (u "  <a>") (u "<a>") /\ line_at (u "<a>") 1 (u "<a>") /\ find_line 1 1 (file_lines [] (u "  <a>")) = Some (u "  <a>").
Proof.
  split; [exists (u "  "); repeat split; [repeat constructor|discriminate]|]. split; [|reflexivity]. apply line_last; [|discriminate]. unfold no_lf. cbn. intuition discriminate.
Qed.
Definition nl : str := [10%N].
(** a parser that knows a few documents, by their text *)
Definition ex_note : node := El None (u "article") [] None [El None (u "p") [] (Some [8224%N]) [] None] None.
Definition jats_parse (s : str) : parsed :=
  if streq s (u "<doc/>") then PDoc (Some (u "UTF-8")) ex_doc
  else if streq s (nl ++ u "<p>&dagger;</p>") then PSyntax 2
  else if streq s (u "<p>&#x2020;</p>") then PDoc None ex_note
  else if streq s (u "<a>" ++ nl) then PSyntax 2
  else PSyntax 1.
Definition jats_relative (base src : str) : str := let d := as_dir base in if starts_with d src then skipn (length d) src else src.
Definition ex_jats : jats_libs :=
  mkJats ascii_space ascii_word ascii_digit ex_token ex_nopunct ex_nopunct ex_pii ex_pii ex_pmid ex_pmid_fix ex_pmcid ex_wos ex_prefix (fun _ => None) ex_lower
    ex_tostring (fun n => match n with 0 => u "0" | 1 => u "1" | _ => u "many" end) jats_parse
    (fun enc e => Ok (match enc with Some x => x | None => u "ASCII" end ++ ex_tostring e)) jats_relative (fun _ => u "now").
Example C92_ex_reads : reads jats_parse (u "  <doc/>") (Some (u "UTF-8")) ex_doc false /\ reads jats_parse (nl ++ u "<p>&dagger;</p>") None ex_note true /\
  (exists e, read_jats jats_parse (u "<a>" ++ nl) = inr e) /\ malformed jats_parse (u "<a").
Proof.
  split; [apply C92_reads; reflexivity|]. split; [apply C92_reads; reflexivity|]. split; [eexists; reflexivity|].
  apply parse_data_bad. eexists. split; reflexivity.
Qed.
Example C92_ex_document : exists final group rest, fixed_document ex_jats (u "now") true ex_doc final /\ nkids final = group :: rest /\
  map (nth_error (nkids group)) [2; 3; 4] =
    map (fun kv => Some (entry (u (fst kv), u (snd kv)))) [("fix-jats-malformatted-xml", "true"); ("fix-jats-changed-reference-count", "1"); ("fix-jats-changed-reference-ids", "r1")] /\
  (forall r r', In r (refs ex_doc) -> fix_ref ex_jats r = Ok r' -> content r' = content r).
Proof.
  assert (E : exists final group rest, fix_document ex_jats (u "now") true ex_doc = Ok final /\ nkids final = group :: rest /\
    map (nth_error (nkids group)) [2; 3; 4] =
    map (fun kv => Some (entry (u (fst kv), u (snd kv)))) [("fix-jats-malformatted-xml", "true"); ("fix-jats-changed-reference-count", "1"); ("fix-jats-changed-reference-ids", "r1")]).
  { eexists. eexists. eexists. split; [vm_compute; reflexivity|]. split; [reflexivity|]. vm_compute. reflexivity. }
  destruct E as (final & group & rest & E & F & G). exists final, group, rest. split; [now apply C92_document|]. split; [exact F|]. split; [exact G|]. clear.
  intros r r' [<-|[<-|[]]] H; vm_compute in H; injection H as <-; vm_compute; reflexivity.
Qed.
Definition jats_srcs : list str := [u "in/a.xml"; u "in/b/a.xml"; u "in/c.xml"].
Definition jats_files : files := fun p =>
  if streq p (u "in/a.xml") then Some (u "  <doc/>") else if streq p (u "in/b/a.xml") then Some (nl ++ u "<p>&dagger;</p>")
  else if streq p (u "in/c.xml") then Some (u "<a>" ++ nl) else None.
Definition jats_order : list nat := [0; 0] ++ concat (repeat [1; 2] 8) ++ repeat 1 1500 ++ repeat 2 1500 ++ [0] ++ repeat 3 10.
Example C92_ex : exists k w,
  fix_steps ex_jats (u "out") (u "in") jats_srcs 2 false k (initial (map (fix_task ex_jats (u "out") (u "in")) jats_srcs) jats_files) w /\
  finished (map (fix_task ex_jats (u "out") (u "in")) jats_srcs) w /\
  map (w_place w) [0; 1; 2] = [Done false; Done false; Done true] /\
  map (fun p => match w_files w p with Some s => firstn 13 s | None => [] end) [u "out/a.xml"; u "out/b/a.xml"; u "out/c.xml"] = [u "UTF-8<article"; u "ASCII<article"; []] /\
  fix_run_fails ex_jats (u "out") (u "in") jats_srcs w = true /\
  NoDup (map (out_of ex_jats (u "out") (u "in")) jats_srcs) /\
  (forall src src', In src jats_srcs -> In src' jats_srcs -> src <> out_of ex_jats (u "out") (u "in") src').
Proof.
  set (x := exec_all (process_source ex_jats (u "out") (u "in")) None (map (fix_task ex_jats (u "out") (u "in")) jats_srcs) 2 true
    (initial (map (fix_task ex_jats (u "out") (u "in")) jats_srcs) jats_files) jats_order).
  pose proof (exec_all_steps (process_source ex_jats (u "out") (u "in")) None (map (fix_task ex_jats (u "out") (u "in")) jats_srcs) 2 true
    (initial (map (fix_task ex_jats (u "out") (u "in")) jats_srcs) jats_files) jats_order) as X. fold x in X.
  exists (length (snd x)), (fst x). split; [exact X|]. clear X.
  assert (E : (map (w_place (fst x)) [0; 1; 2],
    map (fun p => match w_files (fst x) p with Some s => firstn 13 s | None => [] end) [u "out/a.xml"; u "out/b/a.xml"; u "out/c.xml"]) =
    ([Done false; Done false; Done true], [u "UTF-8<article"; u "ASCII<article"; []])) by (vm_compute; reflexivity).
  clearbody x. generalize (fst x) E. clear x E. intros w E. apply pair_equal_spec in E as [E F]. assert (E' := E). cbn [map] in E'. injection E' as E1 E2 E3. split.
  { intros [|[|[|n]]] Hn; cbn in Hn; try lia; eauto. }
  split; [exact E|]. split; [exact F|]. split; [unfold fix_run_fails, run_fails; cbn; now rewrite E1, E2, E3|]. clear.
  destruct (C92_paths ex_jats (u "out") (u "in") jats_srcs) as [H1 H2].
  - repeat constructor; cbn; intuition discriminate.
  - intros src [<-|[<-|[<-|[]]]]; [exists (u "a.xml")|exists (u "b/a.xml")|exists (u "c.xml")]; (repeat split; discriminate).
  - split; [exact H1|]. apply H2; discriminate.
Qed.
(** The check of [process_source_file] looks only at the own output: with the outputs below
    the sources, a source that is the output of another one is overwritten. *)
Definition over_srcs : list str := [u "in/a"; u "in/out/a"].
Definition over_files : files := fun p => if streq p (u "in/a") then Some (u "<doc/>") else if streq p (u "in/out/a") then Some (u "my work") else None.
Definition over_order : list nat := [0] ++ repeat 1 1500 ++ [0] ++ repeat 2 10.
Theorem C93_refuted : exists j output base srcs f0 k w src, NoDup srcs /\ (forall s, In s srcs -> below_base (jl_relative j) base s /\ out_of j output base s <> s) /\
  fix_steps j output base srcs 1 false k (initial (map (fix_task j output base) srcs) f0) w /\ finished (map (fix_task j output base) srcs) w /\
  In src srcs /\ w_files w src <> f0 src.
Proof.
  set (x := exec_all (process_source ex_jats (u "in/out") (u "in")) None (map (fix_task ex_jats (u "in/out") (u "in")) over_srcs) 1 true
    (initial (map (fix_task ex_jats (u "in/out") (u "in")) over_srcs) over_files) over_order).
  pose proof (exec_all_steps (process_source ex_jats (u "in/out") (u "in")) None (map (fix_task ex_jats (u "in/out") (u "in")) over_srcs) 1 true
    (initial (map (fix_task ex_jats (u "in/out") (u "in")) over_srcs) over_files) over_order) as X. fold x in X.
  exists ex_jats, (u "in/out"), (u "in"), over_srcs, over_files, (length (snd x)), (fst x), (u "in/out/a").
  split; [repeat constructor; cbn; intuition discriminate|].
  split. { intros s [<-|[<-|[]]]; (split; [|discriminate]); [exists (u "a")|exists (u "out/a")]; (repeat split; discriminate). }
  split; [exact X|]. clear X.
  assert (E : (map (w_place (fst x)) [0; 1], match w_files (fst x) (u "in/out/a") with Some s => firstn 13 s | None => [] end) = ([Done false; Done true], u "UTF-8<article")) by (vm_compute; reflexivity).
  clearbody x. generalize (fst x) E. clear x E. intros w E. apply pair_equal_spec in E as [E F]. split.
  { cbn [map] in E. injection E as E1 E2. intros [|[|n]] Hn; cbn in Hn; try lia; eauto. }
  split; [right; now left|]. intros H. rewrite H in F. vm_compute in F. discriminate.
Qed.

Print Assumptions C92_line.
Print Assumptions C92_reads.
Print Assumptions C92_unreadable.
Print Assumptions C92_document.
Print Assumptions C92_fixable.
Print Assumptions C92_text.
Print Assumptions C93_partial.
Print Assumptions C93_single.
Print Assumptions C92_run.
Print Assumptions C92_others.
Print Assumptions C92_fails.
Print Assumptions C92_paths.
Print Assumptions C94_partial.
Print Assumptions C94_base.
Print Assumptions C94_refuted.
Print Assumptions C93_refuted.
