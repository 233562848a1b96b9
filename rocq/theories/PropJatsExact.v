(** C76: what is found in the text of a reference, exactly; C141: the quotes of titles *)
From Verif Require Import Base ModelDownload ModelJatsText ModelJats PropJatsText PropJats.
Open Scope list_scope.
Open Scope nat_scope.

(* ---------------------------------------------------------------- *)
(** ** Parts of texts *)
Definition all (f : N -> bool) (s : str) : Prop := forall x, In x s -> f x = true.
Definition last_not (f : N -> bool) (s : str) : Prop := forall s' x, s = s' ++ [x] -> f x = false.
Lemma all_nil f : all f [].
Proof. intros x []. Qed.
Lemma all_forallb f s : all f s <-> forallb f s = true.
Proof. rewrite forallb_forall. reflexivity. Qed.
Lemma drop_spec f s : exists w, s = w ++ drop_while f s /\ all f w /\ forall x r, drop_while f s = x :: r -> f x = false.
Proof.
  induction s as [|x s IH]; [exists []; split; [reflexivity|]; split; [apply all_nil|discriminate]|]. cbn [drop_while]. destruct (f x) eqn:E.
  - destruct IH as (w & H1 & H2 & H3). exists (x :: w). split; [cbn; now rewrite <- H1|]. split; [|exact H3]. intros y [<-|H]; auto.
  - exists []. split; [reflexivity|]. split; [apply all_nil|]. intros y r [= <- _]. exact E.
Qed.
Lemma drop_all f w s : all f w -> drop_while f (w ++ s) = drop_while f s.
Proof.
  intros H. induction w as [|x w IH]; [reflexivity|]. cbn [drop_while app]. rewrite (H x) by (now left). apply IH. intros y Hy. apply H. now right.
Qed.
Lemma rstrip_spec f s : exists w, s = rstrip_by f s ++ w /\ all f w /\ last_not f (rstrip_by f s).
Proof.
  unfold rstrip_by. destruct (drop_spec f (rev s)) as (w & H1 & H2 & H3). exists (rev w). split.
  - rewrite <- rev_app_distr, <- H1. now rewrite rev_involutive.
  - split; [intros x Hx; apply H2; now apply in_rev|]. intros s' x E. apply (f_equal (@rev N)) in E. rewrite rev_involutive, rev_app_distr in E. cbn in E. eapply H3. exact E.
Qed.

Section Exact.
Variables sp wd dg : N -> bool.
Variable token_at : str -> bool.
Variables nopunct nopunct_space : str -> str.

(* ---------------------------------------------------------------- *)
(** ** DOIs *)
(** where to stop: white space or a parenthesis, and then one of the words *)
Definition stops (doi a : str) (x : N) (b : str) : Prop :=
  doi = a ++ x :: b /\ (sp x = true \/ x = 40%N) /\ token_at b = true.
Lemma stop_spec doi : match stop_position sp token_at doi with
  | Some n => exists a x b, stops doi a x b /\ length a = n /\ forall a' x' b', stops doi a' x' b' -> n <= length a'
  | None => forall a x b, ~ stops doi a x b
  end.
Proof.
  induction doi as [|x s IH]; cbn [stop_position].
  - intros a x b (E & _). destruct a; discriminate.
  - destruct ((sp x || N.eqb x 40) && token_at s) eqn:E.
    + apply andb_true_iff in E as [E1 E2]. exists [], x, s. split; [|split; [reflexivity|intros; lia]]. split; [reflexivity|]. split; [|exact E2].
      apply orb_true_iff in E1 as [E1|E1]; [now left|right; now apply N.eqb_eq].
    + assert (N0 : forall x' b', ~ stops (x :: s) [] x' b').
      { intros x' b' (E0 & H1 & H2). injection E0 as <- <-. rewrite H2, andb_true_r in E. apply orb_false_iff in E as [E1 E2]. destruct H1 as [H1|H1]; [congruence|].
        subst. discriminate. }
      destruct (stop_position sp token_at s) as [n|] eqn:En; cbn [option_map].
      * destruct IH as (a & y & b & (H1 & H2) & H3 & H4). exists (x :: a), y, b. split; [split; [cbn; now rewrite H1|exact H2]|]. split; [cbn; lia|].
        intros a' x' b' Hs. destruct a' as [|z a']; [now apply N0 in Hs|]. destruct Hs as (E0 & Hs). injection E0 as <- E0. cbn. apply le_n_S, (H4 a' x' b'). now split.
      * intros a x' b' Hs. destruct a as [|z a]; [now apply N0 in Hs|]. destruct Hs as (E0 & Hs). injection E0 as <- E0. apply (IH a x' b'). now split.
Qed.
(** What is left of a DOI: what is before the first such place, without white space and then
    without dots at its end; all of it if there is none. *)
Theorem C76_truncate doi : let r := truncate_doi sp token_at doi in
  (exists a x b dots w, stops doi a x b /\ (forall a' x' b', stops doi a' x' b' -> length a <= length a') /\
     a = r ++ dots ++ w /\ all (N.eqb 46) dots /\ all sp w /\ last_not sp (r ++ dots) /\ last_not (N.eqb 46) r) \/
  ((forall a x b, ~ stops doi a x b) /\ r = doi).
Proof.
  cbn zeta. unfold truncate_doi. pose proof (stop_spec doi) as H. destruct (stop_position sp token_at doi) as [n|]; [left|right; auto].
  destruct H as (a & x & b & (E & Hs) & <- & Hm). assert (Ef : firstn (length a) doi = a) by (rewrite E, firstn_app, Nat.sub_diag, firstn_all, app_nil_r; reflexivity).
  rewrite Ef. unfold rstrip_char, rstrip.
  destruct (rstrip_spec sp a) as (w & W1 & W2 & W3). destruct (rstrip_spec (N.eqb 46) (rstrip_by sp a)) as (d & D1 & D2 & D3).
  exists a, x, b, d, w. split; [now split|]. split; [exact Hm|]. split; [rewrite app_assoc, <- D1; exact W1|]. split; [exact D2|]. split; [exact W2|]. split; [rewrite <- D1; exact W3|exact D3].
Qed.

Lemma split_first_spec c s : match split_first c s with Some (a, b) => s = a ++ c :: b /\ ~ In c a | None => ~ In c s end.
Proof.
  induction s as [|x s IH]; cbn [split_first]; [intros []|]. destruct (N.eqb x c) eqn:E.
  - apply N.eqb_eq in E as ->. split; [reflexivity|intros []].
  - apply N.eqb_neq in E. destruct (split_first c s) as [[a b]|].
    + destruct IH as [-> IH]. split; [reflexivity|]. intros [H|H]; auto.
    + intros [H|H]; auto.
Qed.
(** one text within another *)
Definition infix (n h : str) : Prop := exists a b, h = a ++ n ++ b.
Lemma starts_spec p s : starts_with p s = true <-> exists b, s = p ++ b.
Proof.
  revert s. induction p as [|x p IH]; intros s; [split; [intros _; now exists s|reflexivity]|]. destruct s as [|y s]; cbn [starts_with].
  - split; [discriminate|intros [b E]; discriminate].
  - split.
    + intros H. apply andb_true_iff in H as [H1 H2]. apply N.eqb_eq in H1 as ->. apply IH in H2 as [b ->]. now exists b.
    + intros [b E]. injection E as -> ->. rewrite N.eqb_refl. apply IH. now exists b.
Qed.
Lemma contains_spec n h : contains n h = true <-> infix n h.
Proof.
  unfold infix. induction h as [|y h IH]; cbn [contains].
  - rewrite orb_false_r, starts_spec. split; [intros [b E]; now exists [], b|]. intros (a & b & E). destruct a; [|discriminate]. now exists b.
  - rewrite orb_true_iff, starts_spec, IH. split.
    + intros [[b E]|(a & b & ->)]; [exists [], b; exact E|exists (y :: a), b; reflexivity].
    + intros (a & b & E). destruct a as [|z a]; [left; now exists b|right]. injection E as <- ->. now exists a, b.
Qed.
(** A second DOI is looked for behind the first slash, without which this fails.  It goes if
    it is also in what is before it, as it is or without punctuation and white space; the white space
    before it goes with it. *)
Definition repeated (a b : str) (i : nat) : Prop :=
  let before := a ++ 47%N :: firstn i b in let other := skipn i b in
  infix other before \/ infix (nopunct_space other) (nopunct_space before).
Theorem C76_duplicate doi :
  (remove_duplicate_doi sp wd dg nopunct_space doi = Err ValueError <-> ~ In 47%N doi) /\
  forall a b, doi = a ++ 47%N :: b -> ~ In 47%N a -> exists r, remove_duplicate_doi sp wd dg nopunct_space doi = Ok r /\
    match find_doi_pattern wd dg b with
    | None => r = doi
    | Some (i, _) => (repeated a b i /\ exists w, a ++ 47%N :: firstn i b = r ++ w /\ all sp w /\ last_not sp r) \/ (~ repeated a b i /\ r = doi)
    end.
Proof.
  assert (K : forall a b, doi = a ++ 47%N :: b -> ~ In 47%N a -> split_first 47 doi = Some (a, b)).
  { clear. intros a b -> H. induction a as [|x a IH]; [reflexivity|]. cbn [app split_first]. destruct (N.eqb x 47) eqn:E; [apply N.eqb_eq in E; destruct H; now left|].
    rewrite IH; [reflexivity|]. intros Hx. apply H. now right. }
  assert (M : forall a b, doi = a ++ 47%N :: b -> ~ In 47%N a -> exists r, remove_duplicate_doi sp wd dg nopunct_space doi = Ok r /\
    match find_doi_pattern wd dg b with
    | None => r = doi
    | Some (i, _) => (repeated a b i /\ exists w, a ++ 47%N :: firstn i b = r ++ w /\ all sp w /\ last_not sp r) \/ (~ repeated a b i /\ r = doi)
    end).
  { intros a b E H. unfold remove_duplicate_doi. rewrite (K a b E H). destruct (find_doi_pattern wd dg b) as [[i j]|]; [|eauto].
    assert (Q : repeated a b i <-> contains (skipn i b) (a ++ 47%N :: firstn i b) = true \/ contains (nopunct_space (skipn i b)) (nopunct_space (a ++ 47%N :: firstn i b)) = true) by (unfold repeated; cbn zeta; now rewrite <- !contains_spec).
    destruct (contains (skipn i b) _) eqn:E1; [|destruct (contains (nopunct_space (skipn i b)) _) eqn:E2].
    - eexists. split; [reflexivity|]. left. split; [apply Q; now left|]. apply rstrip_spec.
    - eexists. split; [reflexivity|]. left. split; [apply Q; now right|]. apply rstrip_spec.
    - eexists. split; [reflexivity|]. right. split; [rewrite Q; intros [H'|H']; congruence|reflexivity]. }
  split; [|exact M]. pose proof (split_first_spec 47 doi) as S. split.
  - intros E Hin. destruct (split_first 47 doi) as [[a b]|] eqn:Es; [|contradiction]. destruct S as [S1 S2]. destruct (M a b S1 S2) as (r & Hr & _). congruence.
  - intros Hin. unfold remove_duplicate_doi. destruct (split_first 47 doi) as [[a b]|]; [|reflexivity]. destruct S as [S1 _]. destruct Hin. rewrite S1. apply in_or_app. right. now left.
Qed.

(* ---------------------------------------------------------------- *)
(** ** Titles *)
(** what may follow a title: nothing, a comma, or a semicolon and a PMC ID; then the end, or a
    newline at the end *)
Definition ending (s : str) : Prop := s = [] \/ s = [NEWLINE].
Definition title_tail (s : str) : Prop :=
  ending s \/
  (exists w ds e, s = 59%N :: w ++ u "PMC"%string ++ ds ++ e /\ all sp w /\ ds <> [] /\ all dg ds /\ ending e) \/
  (exists w w', s = w ++ 44%N :: w' /\ all sp w /\ all sp w').
Lemma at_end_spec s : at_end s = true <-> ending s.
Proof.
  unfold ending. destruct s as [|x [|y s]]; cbn [at_end].
  - split; auto.
  - rewrite N.eqb_eq. split; [intros ->; auto|]. intros [H|H]; [discriminate|now injection H].
  - split; [discriminate|]. intros [H|H]; discriminate.
Qed.
Hypothesis sp_comma : sp 44%N = false.
Hypothesis sp_P : sp 80%N = false.
Lemma title_rest_spec s : title_rest sp dg s = true <-> title_tail s.
Proof.
  unfold title_rest, title_tail. rewrite !orb_true_iff, at_end_spec, or_assoc. apply or_iff_compat_l.
  assert (A : match s with
    | x :: s' => N.eqb x 59 && (let r := drop_while sp s' in starts_with (u "PMC"%string) r && match skipn 3 r with y :: r' => dg y && at_end (drop_while dg r') | [] => false end)
    | [] => false end = true <-> exists w ds e, s = 59%N :: w ++ u "PMC"%string ++ ds ++ e /\ all sp w /\ ds <> [] /\ all dg ds /\ ending e).
  { split.
    - destruct s as [|x s]; [discriminate|]. cbn zeta. rewrite !andb_true_iff, starts_spec. intros (E & (b & Eb) & H). apply N.eqb_eq in E as ->. rewrite Eb in H.
      change (skipn 3 (u "PMC"%string ++ b)) with b in H. destruct b as [|y r]; [discriminate|]. apply andb_true_iff in H as [H1 H2]. apply at_end_spec in H2.
      destruct (drop_spec sp s) as (w & W1 & W2 & _). destruct (drop_spec dg r) as (ds & D1 & D2 & _).
      exists w, (y :: ds), (drop_while dg r). split; [f_equal; rewrite W1 at 1; rewrite Eb; cbn [app]; now rewrite <- D1|]. split; [exact W2|]. split; [discriminate|].
      split; [intros z [<-|Hz]; auto|exact H2].
    - intros (w & ds & e & -> & Hw & Hn & Hd & He). rewrite N.eqb_refl. cbn [andb]. cbn zeta. rewrite drop_all by exact Hw.
      destruct ds as [|y ds]; [contradiction|]. change (u "PMC"%string ++ (y :: ds) ++ e) with (80%N :: 77%N :: 67%N :: y :: ds ++ e). cbn [drop_while]. rewrite sp_P.
      change (starts_with (u "PMC"%string) (80%N :: 77%N :: 67%N :: y :: ds ++ e)) with true. cbn [skipn andb]. rewrite (Hd y) by (now left). cbn [andb].
      rewrite drop_all by (intros z Hz; apply Hd; now right). apply at_end_spec. destruct He as [-> | ->]; [now left|]. cbn [drop_while]. destruct (dg NEWLINE); [now left|now right]. }
  rewrite A. apply or_iff_compat_l. split.
  - destruct (drop_spec sp s) as (w & W1 & W2 & _). destruct (drop_while sp s) as [|x r]; [discriminate|]. rewrite andb_true_iff. intros [E H]. apply N.eqb_eq in E as ->. apply all_forallb in H.
    exists w, r. auto.
  - intros (w & w' & -> & H1 & H2). rewrite drop_all by exact H1. cbn [drop_while]. rewrite sp_comma. rewrite N.eqb_refl. apply all_forallb in H2. now rewrite H2.
Qed.
Lemma title_end_spec s : match title_end sp dg s with
  | Some n => exists b r, s = b ++ r /\ length b = n /\ title_tail r /\ ~ In NEWLINE b /\ forall b' r', s = b' ++ r' -> title_tail r' -> n <= length b'
  | None => forall b r, s = b ++ r -> ~ In NEWLINE b -> ~ title_tail r
  end.
Proof.
  induction s as [|x s IH]; cbn [title_end].
  - assert (E : title_rest sp dg [] = true) by reflexivity. rewrite E. exists [], []. split; [reflexivity|]. split; [reflexivity|]. split; [left; now left|]. split; [intros []|intros; cbn; lia].
  - pose proof (title_rest_spec (x :: s)) as T. destruct (title_rest sp dg (x :: s)) eqn:E.
    + exists [], (x :: s). split; [reflexivity|]. split; [reflexivity|]. split; [now apply T|]. split; [intros []|intros; cbn; lia].
    + assert (N0 : ~ title_tail (x :: s)) by (intros H; apply T in H; discriminate). destruct (N.eqb x NEWLINE) eqn:Ex.
      * apply N.eqb_eq in Ex as ->. intros b r Eb Hb. destruct b as [|y b]; [cbn in Eb; subst; exact N0|]. injection Eb as <- _. destruct Hb. now left.
      * apply N.eqb_neq in Ex. destruct (title_end sp dg s) as [n|] eqn:En; cbn [option_map].
        -- destruct IH as (b & r & -> & <- & H1 & H2 & H3). exists (x :: b), r. split; [reflexivity|]. split; [reflexivity|]. split; [exact H1|]. split; [intros [H|H]; auto|].
           intros b' r' Eb Hr. destruct b' as [|y b']; [cbn in Eb; subst; contradiction|]. injection Eb as <- Eb. cbn. apply le_n_S. eapply H3; eauto.
        -- intros b r Eb Hb. destruct b as [|y b]; [cbn in Eb; subst; exact N0|]. injection Eb as <- Eb. apply (IH b r Eb). intros H. apply Hb. now right.
Qed.
(** the title itself: the shortest text on the first line that has such an end behind it; all of
    the text if there is none *)
Definition title_of (text body : str) : Prop :=
  (exists rest, text = body ++ rest /\ title_tail rest /\ ~ In NEWLINE body /\ forall b' r', text = b' ++ r' -> title_tail r' -> length body <= length b') \/
  (body = text /\ forall b r, text = b ++ r -> ~ In NEWLINE b -> ~ title_tail r).
Definition quote_pair (a b : N) : Prop := In (a, b) [(DQUOTE, DQUOTE); (LSQUO, RSQUO); (LDQUO, RDQUO)].
Definition quoted (body inner : str) : Prop := exists a b, body = a :: inner ++ [b] /\ quote_pair a b /\ inner <> [].
Lemma has_quotes_spec text body rest : text = body ++ rest -> has_quotes text 0 (length body) = true <-> exists inner, quoted body inner.
Proof.
  intros ->. unfold has_quotes, quoted. rewrite andb_true_iff, Nat.ltb_lt. split.
  - intros [L H]. cbn in L. destruct body as [|a body]; [cbn in L; lia|]. destruct (exists_last (l := body)) as (inner & b & ->); [intros ->; cbn in L; lia|].
    exists inner, a, b. split; [reflexivity|]. rewrite !nth_error_app1 in H by (cbn; lia). cbn [nth_error length] in H.
    replace (S (length (inner ++ [b])) - 1) with (S (length inner)) in H by (rewrite app_length; cbn; lia). cbn [nth_error] in H.
    rewrite nth_error_app2, Nat.sub_diag in H by lia. cbn [nth_error] in H. split.
    + unfold quote_pair. cbn [In]. rewrite !orb_true_iff, !andb_true_iff, !N.eqb_eq in H. destruct H as [[[-> ->]|[-> ->]]|[-> ->]]; auto.
    + intros ->. cbn in L. lia.
  - intros (inner & a & b & -> & Q & Hn). destruct inner as [|y inner]; [contradiction|]. split; [cbn; rewrite app_length; cbn; lia|].
    rewrite !nth_error_app1 by (cbn; lia). replace (length (a :: (y :: inner) ++ [b]) - 1) with (S (length (y :: inner))) by (cbn; rewrite app_length; cbn; lia).
    cbn [nth_error]. change (nth_error ((y :: inner) ++ [b]) (length (y :: inner))) with (nth_error ((y :: inner) ++ [b]) (length (y :: inner))). rewrite nth_error_app2, Nat.sub_diag by lia. cbn [nth_error].
    cbn in Q. destruct Q as [[= <- <-]|[[= <- <-]|[[= <- <-]|[]]]]; reflexivity.
Qed.
(** The place of the title, without its quotes. *)
Theorem C76_title text : exists body, title_of text body /\
  ((exists inner, quoted body inner /\ find_article_title_start_end sp dg text = (1, 1 + length inner)) \/
   ((forall inner, ~ quoted body inner) /\ find_article_title_start_end sp dg text = (0, length body))).
Proof.
  pose proof (title_end_spec text) as H. unfold find_article_title_start_end.
  assert (K : exists body rest, text = body ++ rest /\ title_of text body /\ match title_end sp dg text with Some n => n | None => length text end = length body).
  { destruct (title_end sp dg text) as [n|].
    - destruct H as (b & r & E & <- & H1 & H2 & H3). exists b, r. split; [exact E|]. split; [|reflexivity]. left. exists r. auto.
    - exists text, []. split; [now rewrite app_nil_r|]. split; [|reflexivity]. right. auto. }
  destruct K as (body & rest & E & Ht & ->). exists body. split; [exact Ht|]. pose proof (has_quotes_spec text body rest E) as Q. destruct (has_quotes text 0 (length body)).
  - left. destruct Q as [Q _]. destruct (Q eq_refl) as (inner & Hq). exists inner. split; [exact Hq|]. destruct Hq as (a & b & -> & _). f_equal. cbn. rewrite app_length. cbn. lia.
  - right. split; [|reflexivity]. intros inner Hq. destruct Q as [_ Q]. discriminate Q. now exists inner.
Qed.

(* ---------------------------------------------------------------- *)
(** ** Links *)
(** the address of a new link: the text without white space, with a scheme *)
Theorem C76_address text : let r := full_url sp text in
  let plain := filter (fun c => negb (sp c)) text in
  (infix (u "://"%string) plain /\ r = plain) \/ (~ infix (u "://"%string) plain /\ r = u "https://"%string ++ plain).
Proof.
  cbn zeta. unfold full_url. rewrite <- contains_spec. destruct (contains _ _); [left|right]; split; auto.
Qed.
Variable repeated_doi : str -> option nat.
(** A link keeps everything but its address, which is cut if it is one of a DOI that has the
    DOI twice. *)
Theorem C76_link prev m nm (a : list (str * str)) x kids t (href : str) : dict_get HREF a = Some href -> href <> [] -> exists href' rest,
  cut_href repeated_doi prev (El m nm a x kids t) = Ok (prev, [El m nm (dict_set HREF href' a) x kids t], false) /\ href = href' ++ rest /\
  match repeated_doi href with
  | Some n => (infix (u "doi.org"%string) href -> length href' = Nat.min n (length href)) /\ (~ infix (u "doi.org"%string) href -> rest = [])
  | None => rest = []
  end.
Proof.
  intros E Hn. unfold cut_href. rewrite E. destruct href as [|c h]; [contradiction|]. unfold find_ext_link.
  remember (c :: h) as s eqn:Es. assert (All : slice s 0 (length s) = s) by (unfold slice; cbn [skipn]; rewrite Nat.sub_0_r; apply firstn_all).
  pose proof (contains_spec (u "doi.org"%string) s) as Q. destruct (contains (u "doi.org") s) eqn:Ec.
  - destruct (repeated_doi s) as [n|].
    + exists (slice s 0 n), (skipn n s). unfold slice. cbn [skipn]. rewrite Nat.sub_0_r. split; [reflexivity|]. split; [now rewrite firstn_skipn|]. split; [intros _; apply firstn_length|intros H; destruct H; now apply Q].
    + exists s, []. rewrite All. split; [reflexivity|]. split; [now rewrite app_nil_r|reflexivity].
  - exists s, []. rewrite All. split; [reflexivity|]. split; [now rewrite app_nil_r|]. destruct (repeated_doi s); [split; [intros H; apply Q in H; discriminate|reflexivity]|reflexivity].
Qed.
End Exact.

(* ---------------------------------------------------------------- *)
(** ** One new element at most *)
Fixpoint size (e : node) : nat := match e with El _ _ _ _ kids _ => S (list_sum (map size kids)) | Mi _ => 1 end.
Definition sizes (l : list node) : nat := list_sum (map size l).
Lemma sizes_app l l' : sizes (l ++ l') = sizes l + sizes l'.
Proof. unfold sizes. rewrite map_app. apply list_sum_app. Qed.
Lemma sizes_cons c l : sizes (c :: l) = size c + sizes l.
Proof. reflexivity. Qed.
Lemma size_eq e : size e = S (sizes (nkids e)).
Proof. destruct e; reflexivity. Qed.
Lemma size_tail t e : size (set_tail t e) = size e.
Proof. destruct e; reflexivity. Qed.
Lemma size_mark t e : size (set_mark t e) = size e.
Proof. destruct e; reflexivity. Qed.
Lemma unmark_set_mark m e : unmark (set_mark m e) = unmark e.
Proof. destruct e; reflexivity. Qed.
Lemma size_unmark e : size (unmark e) = size e.
Proof.
  induction e as [m nm a x kids t IH|t] using node_ind'; [|reflexivity]. cbn [unmark size]. f_equal. induction IH as [|c l H1 H2 IH]; [reflexivity|]. cbn [map]. fold (sizes (unmark c :: map unmark l)) (sizes (c :: l)). unfold sizes in *. cbn [map list_sum fold_right]. unfold list_sum in *. cbn [fold_right]. now rewrite H1, IH.
Qed.
Lemma unmark_label p e : forall n, unmark (snd (label p n e)) = unmark e.
Proof.
  induction e as [m nm a x kids t IH|t] using node_ind'; intros n; [|reflexivity]. rewrite label_eq.
  assert (K : forall n, map unmark (snd (label_kids p n kids)) = map unmark kids).
  { clear n. induction IH as [|c kids H1 H2 IHk]; intros n; [reflexivity|]. cbn [label_kids]. destruct (label p (if p c then S n else n) c) as [n2 c'] eqn:E.
    fold (label_kids p). specialize (IHk n2). destruct (label_kids p n2 kids) as [n3 l'']. cbn [snd map] in *. rewrite unmark_set_mark, IHk. f_equal. rewrite <- (H1 (if p c then S n else n)), E. reflexivity. }
  specialize (K n). destruct (label_kids p n kids) as [n' kids']. cbn [snd unmark] in *. now rewrite K.
Qed.
Section One.
Variable act : change.
Hypothesis Hact : forall prev c p' l b, act prev c = Ok (p', l, b) -> if b then sizes l = S (size c) else p' = prev /\ l = [c].
Lemma one_kids k kids : Forall (fun e => forall e' b, at_node act k e = Ok (Some (e', b)) -> if b then size e' = S (size e) else e' = e) kids ->
  forall prev p' l b, at_kids act k prev kids = Ok (Some (p', l, b)) -> if b then sizes l = S (sizes kids) else p' = prev /\ l = kids.
Proof.
  induction 1 as [|c kids H1 H2 IH]; intros prev p' l b E; [discriminate|]. apply at_kids_inv in E as [(_ & new & E1 & ->)|[(_ & c' & E1 & -> & ->)|(_ & _ & t' & l'' & E1 & -> & ->)]].
  - apply Hact in E1. destruct b; [rewrite sizes_app, sizes_cons, E1; lia|]. destruct E1 as [-> ->]. auto.
  - apply H1 in E1. destruct b; [rewrite !sizes_cons, E1; lia|]. now subst.
  - apply IH in E1. destruct b; [rewrite !sizes_cons, size_tail, E1; lia|]. destruct E1 as [-> ->]. now rewrite set_tail_same.
Qed.
Lemma one_node k e : forall e' b, at_node act k e = Ok (Some (e', b)) -> if b then size e' = S (size e) else e' = e.
Proof.
  induction e as [m nm a x kids t IH|t] using node_ind'; intros e' b E; [|discriminate]. apply at_node_inv in E as (m0 & nm0 & a0 & x0 & kids0 & t0 & x' & kids' & E0 & -> & E). injection E0 as <- <- <- <- <- <-.
  apply (one_kids k kids IH) in E. destruct b; [rewrite !size_eq; cbn [nkids]; lia|]. now destruct E as [-> ->].
Qed.
Lemma one_loop n : forall k e e', loop act k n e = Ok e' -> e' = e \/ size e' = S (size e).
Proof.
  induction n as [|n IH]; intros k e e'; cbn [loop]; [intros [= <-]; auto|]. destruct (at_node act k e) as [[[e1 [|]]|]|] eqn:E; cbn [bind]; [| | |discriminate].
  - intros [= <-]. right. exact (one_node k e e1 true E).
  - intros H. pose proof (one_node k e e1 false E) as E1. cbn in E1. subst. eapply IH; eauto.
  - intros H. eapply IH; eauto.
Qed.
End One.
Lemma first_kid_size sel f l : (forall c l', sel c = true -> f c = Ok (Some l') -> sizes l' = S (size c)) ->
  forall l', first_kid sel f l = Ok (Some l') -> sizes l' = S (sizes l).
Proof.
  intros Hf. induction l as [|c l IH]; intros l'; cbn [first_kid]; [discriminate|]. destruct (sel c) eqn:Es.
  - destruct (f c) as [[new|]|] eqn:E; cbn [bind]; [| |discriminate].
    + intros [= <-]. rewrite sizes_app, sizes_cons, (Hf c new Es E). lia.
    + destruct (first_kid sel f l) as [[l2|]|]; cbn [bind option_map]; [|discriminate|discriminate]. intros [= <-]. rewrite !sizes_cons, (IH l2 eq_refl). lia.
  - cbn [bind]. destruct (first_kid sel f l) as [[l2|]|]; cbn [bind option_map]; [|discriminate|discriminate]. intros [= <-]. rewrite !sizes_cons, (IH l2 eq_refl). lia.
Qed.
(** Without comments, however many citations a reference has, and however often the ID is in
    it: nothing is changed or there is one more element. *)
Theorem C76_one find create ref ref' : (forall s, size (create s) = 1) -> add_annotation find create false ref = Ok ref' ->
  ref' = unmark ref \/ size ref' = S (size ref).
Proof.
  intros Hc. unfold add_annotation, each. pose proof (unmark_label mixed_citation ref 0) as L. destruct (label mixed_citation 0 ref) as [n e]. cbn [snd] in L.
  destruct (loop (annotate find create false) 0 n e) as [r|] eqn:E; cbn [bind]; [|discriminate]. intros [= <-].
  apply one_loop in E; [destruct E as [->|E]; [left; exact L|right; rewrite size_unmark, E, <- (size_unmark e), L, size_unmark; reflexivity]|].
  clear - Hc. intros prev c p' l b. unfold annotate. destruct (annotate_text find create c) as [[e'|]|] eqn:E1; cbn [bind]; [| |discriminate].
  - intros [= <- <- <-]. destruct c as [m nm a [[|y text]|] kids t|t]; try discriminate. cbn [annotate_text] in E1. destruct (find (y :: text)) as [[[i j]|]|]; [| |discriminate]; cbn [bind] in E1; [|discriminate].
    injection E1 as <-. unfold sizes. cbn [map list_sum]. rewrite !size_eq. cbn [nkids]. rewrite sizes_cons, size_tail, Hc. cbn. lia.
  - destruct c as [m nm a x kids t|t]; [|intros [= <- <- <-]; auto]. destruct (first_kid is_element (annotate_tail find create) kids) as [[l'|]|] eqn:E2; cbn [bind]; [| |discriminate].
    + intros [= <- <- <-]. apply first_kid_size in E2; [rewrite sizes_cons, !size_eq; cbn [nkids]; rewrite E2; cbn; lia|].
      clear - Hc. intros c l' _. unfold annotate_tail. destruct (ntail c) as [[|y text]|]; try discriminate. destruct (find (y :: text)) as [[[i j]|]|]; [| |discriminate]; cbn [bind]; [|discriminate].
      intros [= <-]. rewrite !sizes_cons, !size_tail, Hc. cbn. lia.
    + intros [= <- <- <-]. auto.
Qed.
Lemma new_pub_id_size type s : size (new_pub_id type s) = 1.
Proof. reflexivity. Qed.

(* ---------------------------------------------------------------- *)
(** ** Examples *)
Example C76_ex_truncate : truncate_doi ascii_space ex_token (u "10.1234/ab . PMID 7"%string) = u "10.1234/ab "%string.
Proof. vm_compute. reflexivity. Qed.
Example C76_ex_truncate_stops : stops ascii_space ex_token (u "10.1234/ab. PMID 7"%string) (u "10.1234/ab."%string) 32 (u "PMID 7"%string).
Proof. repeat split; auto. Qed.
Example C76_ex_duplicate : remove_duplicate_doi ascii_space ascii_word ascii_digit ex_nopunct (u "10.1234/ab (10.1234/ab)"%string) = Ok (u "10.1234/ab ("%string)
  /\ remove_duplicate_doi ascii_space ascii_word ascii_digit ex_nopunct (u "10.1234"%string) = Err ValueError.
Proof. split; vm_compute; reflexivity. Qed.
Example C76_ex_title : find_article_title_start_end ascii_space ascii_digit (u """A, B""; PMC12"%string) = (1, 5).
Proof. vm_compute. reflexivity. Qed.
Example C76_ex_title_of : title_of ascii_space ascii_digit (u "A, B; PMC12"%string) (u "A, B"%string).
Proof.
  left. exists (u "; PMC12"%string). split; [reflexivity|]. split.
  - right. left. exists [32%N], (u "12"%string), []. repeat split; [|discriminate| |now left]; intros x H; cbn in H; intuition (subst; reflexivity).
  - split; [cbn; intuition discriminate|]. intros b' r' E H. destruct (Nat.le_gt_cases 4 (length b')) as [L|L]; [exact L|exfalso]. apply title_rest_spec in H; [|reflexivity|reflexivity].
    destruct b' as [|b0 [|b1 [|b2 [|b3 b']]]]; cbn in L; try lia; cbn in E; inversion E; subst; vm_compute in H; discriminate.
Qed.
Example C76_ex_address : full_url ascii_space (u "doi . org/10.1"%string) = u "https://doi.org/10.1"%string.
Proof. vm_compute. reflexivity. Qed.
Definition ex_repeated (s : str) : option nat := if Nat.eqb (length s) 24 then Some 17 else None.
Example C76_ex_link : cut_href ex_repeated None (El None (u "ext-link"%string) [(HREF, u "http://doi.org/10.1/10.1"%string)] None [] None) =
  Ok (None, [El None (u "ext-link"%string) [(HREF, u "http://doi.org/10"%string)] None [] None], false).
Proof. vm_compute. reflexivity. Qed.
(** two citations with an ID each: only the first is marked *)
Definition ex_citation (s : string) : node := El None (u "mixed-citation"%string) [] (Some (u s)) [] None.
Example C76_ex_one : exists ref', add_annotation (finding ex_pmid) (new_pub_id "pmid") false (El None (u "ref"%string) [] None [ex_citation "PMID:77"; ex_citation "PMID:77"] None) = Ok ref' /\ size ref' = 4.
Proof. eexists. split; vm_compute; reflexivity. Qed.

(* ---------------------------------------------------------------- *)
(** ** Commas and spaces at the end of titles *)
Lemma rstrip_cut f s z w : f z = false -> all f w -> rstrip_by f ((s ++ [z]) ++ w) = s ++ [z].
Proof.
  intros Hz Hw. unfold rstrip_by. rewrite rev_app_distr, drop_all by (intros y Hy; apply Hw; now apply in_rev). rewrite rev_app_distr. cbn [rev app drop_while]. rewrite Hz.
  cbn [rev]. now rewrite rev_involutive.
Qed.
Lemma cut_last_app f ks k s : s <> [] -> ntail k = Some s -> cut_last f (ks ++ [k]) = (ks ++ [set_tail (Some (fst (f s))) k], snd (f s)).
Proof.
  intros Hs Hk. induction ks as [|c ks IH]; cbn [app cut_last]; [rewrite Hk; destruct s; [congruence|reflexivity]|]. rewrite IH. destruct ks; reflexivity.
Qed.
(** Commas and spaces (44, 32) behind the last child of a title are moved behind the title; *)
Theorem C76_comma m nm a x ks k t s z w : ntail k = Some ((s ++ [z]) ++ w) -> ~ In z [44%N; 32%N] -> w <> [] -> (forall c, In c w -> In c [44%N; 32%N]) ->
  remove_comma (El m nm a x (ks ++ [k]) t) = El m nm a x (ks ++ [set_tail (Some (s ++ [z])) k]) (Some (w ++ otext t)).
Proof.
  intros Hk Hz' Hw Ha'.
  assert (C : forall c, In c [44%N; 32%N] <-> comma_or_space c = true).
  { intros c. unfold comma_or_space. rewrite orb_true_iff, !N.eqb_eq. cbn. intuition congruence. }
  assert (Hz : comma_or_space z = false) by (destruct (comma_or_space z) eqn:Z; [destruct (Hz' (proj2 (C z) Z))|reflexivity]).
  assert (Ha : all comma_or_space w) by (intros c Hc; apply C; now apply Ha').
  cbn [remove_comma]. rewrite content_eq, flow_app, flow_cons, Hk. cbn [otext].
  assert (E : otext x ++ flow ks ++ (content k ++ (s ++ [z]) ++ w) ++ flow [] = ((otext x ++ flow ks ++ content k ++ s) ++ [z]) ++ w).
  { change (flow []) with (@nil N). now rewrite app_nil_r, <- !app_assoc. }
  rewrite E, (rstrip_cut comma_or_space _ z w Hz Ha). rewrite (app_length _ w).
  assert (L : forall n k : nat, n + k - n = k) by (intros; lia). rewrite L.
  destruct (Nat.eqb_spec (length w) 0) as [H0|_]; [destruct w; [congruence|discriminate]|].
  assert (T : last_tail (ks ++ [k]) = Some ((s ++ [z]) ++ w)) by (unfold last_tail; rewrite rev_app_distr; exact Hk).
  assert (N : (s ++ [z]) ++ w <> []) by (destruct s; discriminate).
  rewrite T. replace (truthy (Some ((s ++ [z]) ++ w))) with true by (destruct s; reflexivity).
  rewrite (cut_last_app _ ks k _ N Hk). cbn [fst snd]. rewrite app_length.
  assert (M : forall n k : nat, n + k - k = n) by (intros; lia). rewrite M, firstn_app, Nat.sub_diag, firstn_all, firstn_O, app_nil_r, skipn_app, Nat.sub_diag, skipn_all. reflexivity.
Qed.
(** those in the title itself or in its last child stay. *)
Theorem C76_comma_kept m nm a x kids t : kids = [] \/ (exists ks k, kids = ks ++ [k] /\ otext (ntail k) = []) ->
  remove_comma (El m nm a x kids t) = El m nm a x kids t.
Proof.
  intros H. cbn [remove_comma]. destruct (_ =? 0); [reflexivity|]. assert (T : truthy (last_tail kids) = false).
  { destruct H as [->|(ks & k & -> & H)]; [reflexivity|]. unfold last_tail. rewrite rev_app_distr. cbn [rev app]. destruct (ntail k) as [[|]|]; [reflexivity|discriminate|reflexivity]. }
  now rewrite T.
Qed.
Example C76_comma_ex :
  let it := El None (u "italic") [] (Some (u "b,")) [] in
  remove_comma (El None (u "article-title") [] (Some (u "A ")) [it None; it (Some (u " c, "))] (Some (u "d"))) =
    El None (u "article-title") [] (Some (u "A ")) [it None; it (Some (u " c"))] (Some (u ", d")) /\
  remove_comma (El None (u "article-title") [] (Some (u "A ")) [it (Some (u " c, ")); it None] None) = El None (u "article-title") [] (Some (u "A ")) [it (Some (u " c, ")); it None] None.
Proof. cbv zeta. split; vm_compute; reflexivity. Qed.

(* ---------------------------------------------------------------- *)
(** ** C141: quotes of titles *)
Lemma quotes_all text : has_quotes text 0 (length text) = true <-> exists inner, quoted text inner.
Proof. apply (has_quotes_spec text text []). now rewrite app_nil_r. Qed.
(** Quotes around a title whose last child has text behind it are both moved out of the title; *)
Theorem C141_both prev m nm a x ks k t s l r : quote_pair l r -> ntail k = Some (s ++ [r]) -> x ++ flow ks ++ content k ++ s <> [] ->
  remove_quotes prev (El m nm a (Some (l :: x)) (ks ++ [k]) t) = (Some (otext prev ++ [l]), El m nm a (Some x) (ks ++ [set_tail (Some s) k]) (Some (r :: otext t))).
Proof.
  intros Q Hk Hn. cbn [remove_quotes]. rewrite content_eq, flow_app, flow_cons, Hk. cbn [otext].
  assert (E : (l :: x) ++ flow ks ++ (content k ++ s ++ [r]) ++ flow [] = l :: (x ++ flow ks ++ content k ++ s) ++ [r]).
  { change (flow []) with (@nil N). cbn [app]. now rewrite app_nil_r, <- !app_assoc. }
  rewrite E. set (inner := x ++ flow ks ++ content k ++ s) in *.
  assert (H : has_quotes (l :: inner ++ [r]) 0 (length (l :: inner ++ [r])) = true) by (apply quotes_all; exists inner, l, r; auto).
  destruct (inner ++ [r]) as [|c2 rest] eqn:Ei; [destruct inner; discriminate|]. rewrite H.
  assert (T : last_tail (ks ++ [k]) = Some (s ++ [r])) by (unfold last_tail; rewrite rev_app_distr; exact Hk).
  assert (N : s ++ [r] <> []) by (destruct s; discriminate).
  rewrite T. replace (truthy (Some (s ++ [r]))) with true by (destruct s; reflexivity).
  rewrite (cut_last_app _ ks k _ N Hk). cbn [fst snd]. rewrite app_length. cbn [length].
  assert (M : forall n : nat, n + 1 - 1 = n) by (intros; lia). rewrite M, firstn_app, Nat.sub_diag, firstn_all, firstn_O, app_nil_r, skipn_app, Nat.sub_diag, skipn_all. reflexivity.
Qed.
(** of a title without children only the left one is moved. *)
Theorem C141_text prev m nm a inner t l r : quote_pair l r -> inner <> [] ->
  remove_quotes prev (El m nm a (Some (l :: inner ++ [r])) [] t) = (Some (otext prev ++ [l]), El m nm a (Some (inner ++ [r])) [] t).
Proof.
  intros Q Hn. cbn [remove_quotes]. rewrite content_eq. cbn [otext]. change (flow []) with (@nil N). rewrite app_nil_r.
  assert (H : has_quotes (l :: inner ++ [r]) 0 (length (l :: inner ++ [r])) = true) by (apply quotes_all; exists inner, l, r; auto).
  destruct (inner ++ [r]) as [|c2 rest] eqn:Ei; [destruct inner; discriminate|]. rewrite H. reflexivity.
Qed.
(** A left quote with the right one elsewhere in the title stays, *)
Definition keeps_left (l r : N) : Prop := forall prev m nm a x kids t rest, content (El m nm a x kids t) = l :: rest -> In r rest -> (forall inner, ~ quoted (l :: rest) inner) ->
  remove_quotes prev (El m nm a x kids t) = (prev, El m nm a x kids t).
Theorem C141_kept l r : quote_pair l r -> l <> LDQUO -> keeps_left l r.
Proof.
  intros Q Hl prev m nm a x kids t rest E Hr Hq. cbn [remove_quotes]. rewrite E. destruct rest as [|c2 rest]; [destruct Hr|].
  destruct (has_quotes _ _ _) eqn:H; [apply quotes_all in H as (inner & H); destruct (Hq inner H)|].
  assert (R : right_quote l = Some r). { cbn in Q. destruct Q as [[= <- <-]|[[= <- <-]|[[= <- <-]|[]]]]; [reflexivity|reflexivity|congruence]. }
  rewrite R. replace (existsb (N.eqb r) (c2 :: rest)) with true; [reflexivity|]. symmetry. apply existsb_exists. exists r. split; [exact Hr|apply N.eqb_refl].
Qed.
(** but for the double typographic quotes (the table of the code has the single right one for them); *)
Theorem C141_kept_refuted : exists l r, quote_pair l r /\ ~ keeps_left l r.
Proof.
  exists LDQUO, RDQUO. split; [right; right; now left|]. intros H.
  specialize (H None None (u "article-title") [] (Some [LDQUO; 65%N; RDQUO; 66%N]) [] None [65%N; RDQUO; 66%N] eq_refl (or_intror (or_introl eq_refl))).
  assert (X : forall inner, ~ quoted [LDQUO; 65%N; RDQUO; 66%N] inner).
  { intros inner Hq. assert (B : exists i, quoted [LDQUO; 65%N; RDQUO; 66%N] i) by eauto. apply quotes_all in B. vm_compute in B. discriminate B. }
  specialize (H X). vm_compute in H. discriminate H.
Qed.
(** one without any right quote is moved in front of the title; a title that does not start with a quote stays. *)
Theorem C141_alone prev m nm a x kids t l : In l [DQUOTE; LSQUO; LDQUO] -> x ++ flow kids <> [] -> (forall r, In r [DQUOTE; RSQUO; RDQUO] -> ~ In r (x ++ flow kids)) ->
  remove_quotes prev (El m nm a (Some (l :: x)) kids t) = (Some (otext prev ++ [l]), El m nm a (Some x) kids t).
Proof.
  intros Hl Hn Hr. cbn [remove_quotes]. rewrite content_eq. cbn [otext app]. set (rest := x ++ flow kids) in *. destruct rest as [|c2 rest'] eqn:Er; [congruence|].
  destruct (has_quotes _ _ _) eqn:H.
  { apply quotes_all in H as (inner & p & q & E & Q & _). exfalso. injection E as <- E. apply (Hr q); [|rewrite E; apply in_or_app; right; now left].
    cbn in Q. destruct Q as [[= <- <-]|[[= <- <-]|[[= <- <-]|[]]]]; cbn; auto. }
  assert (R : exists q, right_quote l = Some q /\ In q [DQUOTE; RSQUO; RDQUO]).
  { cbn in Hl. destruct Hl as [<-|[<-|[<-|[]]]]; [exists DQUOTE|exists RSQUO|exists RSQUO]; (split; [reflexivity|cbn; auto]). }
  destruct R as (q & -> & Hq). destruct (existsb (N.eqb q) (c2 :: rest')) eqn:X; [|reflexivity].
  apply existsb_exists in X as (y & Hy & Ey). apply N.eqb_eq in Ey as <-. destruct (Hr q Hq Hy).
Qed.
Theorem C141_none prev m nm a x kids t : (forall l rest, content (El m nm a x kids t) = l :: rest -> ~ In l [DQUOTE; LSQUO; LDQUO]) ->
  remove_quotes prev (El m nm a x kids t) = (prev, El m nm a x kids t).
Proof.
  intros H. cbn [remove_quotes]. destruct (content _) as [|l [|c2 rest]] eqn:E; [reflexivity|reflexivity|]. specialize (H l _ eq_refl).
  destruct (has_quotes _ _ _) eqn:B.
  { apply quotes_all in B as (inner & p & q & [= <- _] & Q & _). exfalso. apply H. cbn in Q. destruct Q as [[= <- <-]|[[= <- <-]|[[= <- <-]|[]]]]; cbn; auto. }
  unfold right_quote. destruct (N.eqb_spec l DQUOTE) as [->|_]; [destruct H; now left|]. destruct (N.eqb_spec l LSQUO) as [->|_]; [destruct H; right; now left|].
  destruct (N.eqb_spec l LDQUO) as [->|_]; [destruct H; right; right; now left|]. reflexivity.
Qed.
Example C141_ex :
  let it := El None (u "italic") [] (Some (u "b")) [] in
  remove_quotes (Some (u "1. ")) (El None (u "article-title") [] (Some (u """A ")) [it None; it (Some (u " c"""))] (Some (u " d"))) =
    (Some (u "1. """), El None (u "article-title") [] (Some (u "A ")) [it None; it (Some (u " c"))] (Some (u """ d"))) /\
  remove_quotes None (El None (u "article-title") [] (Some (u """A""")) [] None) = (Some (u """"), El None (u "article-title") [] (Some (u "A""")) [] None) /\
  remove_quotes None (El None (u "article-title") [] (Some (u """A"" b")) [] None) = (None, El None (u "article-title") [] (Some (u """A"" b")) [] None) /\
  remove_quotes None (El None (u "article-title") [] (Some (u """A")) [it None] None) = (Some (u """"), El None (u "article-title") [] (Some (u "A")) [it None] None) /\
  remove_quotes None (El None (u "article-title") [] (Some (u "A""")) [it None] None) = (None, El None (u "article-title") [] (Some (u "A""")) [it None] None).
Proof. cbv zeta. repeat split; vm_compute; reflexivity. Qed.

Print Assumptions C76_truncate.
Print Assumptions C76_duplicate.
Print Assumptions C76_title.
Print Assumptions C76_address.
Print Assumptions C76_link.
Print Assumptions C76_one.
Print Assumptions C76_comma.
Print Assumptions C76_comma_kept.
Print Assumptions C141_both.
Print Assumptions C141_text.
Print Assumptions C141_kept.
Print Assumptions C141_kept_refuted.
Print Assumptions C141_alone.
Print Assumptions C141_none.
