(** C127: where XML files are read from. *)
From Verif Require Import Base ModelPipeline ModelJats ModelFixJats ModelRead.
Open Scope list_scope.
Open Scope nat_scope.

(* ---------------------------------------------------------------- *)
(** ** Specification *)
Definition contains (t s : str) : Prop := exists a b, s = a ++ t ++ b.
(** the part after the last slash is the name of a file *)
Definition names_file (p : str) : Prop :=
  exists d n, p = d ++ n /\ ~ In SLASH n /\ (d = [] \/ exists d', d = d' ++ [SLASH]) /\ n <> [] /\ n <> u "." /\ n <> u "..".
(** what is to be read: [inl] its content, [inr] why there is none *)
Inductive gives (remote : str -> res str) (f : files) : source -> str + read_error -> Prop :=
| gives_local p c : p <> [] -> ~ contains (u "://") p -> f p = Some c -> gives remote f (Named p) (inl c)
| gives_absent p : p <> [] -> ~ contains (u "://") p -> f p = None -> gives remote f (Named p) (inr ROs)
| gives_remote p c : contains (u "://") p -> remote p = Ok c -> names_file p -> gives remote f (Named p) (inl c)
| gives_unnamed p c : contains (u "://") p -> remote p = Ok c -> ~ names_file p -> gives remote f (Named p) (inr ROs)
| gives_unreachable p e : contains (u "://") p -> remote p = Err e -> gives remote f (Named p) (inr (RErr e))
| gives_nothing : gives remote f (Named []) (inr (RErr AssertionError))
| gives_opened c : gives remote f (Opened (Ok c)) (inl c)
| gives_unopened e : gives remote f (Opened (Err e)) (inr (RErr e)).

(** a temporary directory is new and has a usual name *)
Definition new_dir (temp : str -> files -> str) (suffix : str) (f : files) : Prop :=
  (forall p c, f p = Some c -> forall r, p <> temp suffix f ++ SLASH :: r) /\
  temp suffix f <> [] /\ (forall r, temp suffix f <> r ++ [SLASH]) /\ ~ contains (u "://") (temp suffix f).
(** so are the one for downloads and then, whatever is in the first, the one for repaired files *)
Definition new_dirs (temp : str -> files -> str) (f : files) : Prop :=
  new_dir temp (u "-input") f /\
  forall g, (forall p, g p = f p \/ exists r, p = temp (u "-input") f ++ SLASH :: r) -> new_dir temp (u "-input-fixed") g.
Definition real_files (f : files) : Prop := forall p c, f p = Some c -> names_file p.

(* ---------------------------------------------------------------- *)
(** ** Names *)
Lemma has_scheme_spec s : has_scheme s = true <-> contains (u "://") s.
Proof.
  induction s as [|x s IH].
  - split; [discriminate|]. intros (a & b & E). symmetry in E. apply app_eq_nil in E as [_ E]. discriminate.
  - cbn [has_scheme]. rewrite Bool.orb_true_iff, starts_with_spec, IH. split.
    + intros [(r & E)|(a & b & ->)]; [now exists [], r|]. now exists (x :: a), b.
    + intros ([|y a] & b & E); [left; now exists b|]. right. injection E as -> ->. now exists a, b.
Qed.
Lemma after_last_clean s : forall cur, ~ In SLASH s -> after_last cur s = cur ++ s.
Proof.
  induction s as [|x s IH]; intros cur H; cbn [after_last]; [now rewrite app_nil_r|].
  destruct (N.eqb_spec x SLASH) as [->|E]; [exfalso; apply H; now left|]. rewrite IH by (intros K; apply H; now right). now rewrite <- app_assoc.
Qed.
Lemma after_last_slash d n : forall cur, after_last cur (d ++ SLASH :: n) = after_last [] n.
Proof. induction d as [|x d IH]; intros cur; cbn [after_last app]; [reflexivity|]. destruct (N.eqb x SLASH); apply IH. Qed.
Lemma basename_parts s : exists d, s = d ++ basename s /\ ~ In SLASH (basename s) /\ (d = [] \/ exists d', d = d' ++ [SLASH]).
Proof.
  unfold basename. assert (K : forall cur, ~ In SLASH cur -> exists d, cur ++ s = d ++ after_last cur s /\ ~ In SLASH (after_last cur s) /\ (d = [] \/ exists d', d = d' ++ [SLASH])).
  { induction s as [|x s IH]; intros cur H; cbn [after_last].
    - exists []. rewrite app_nil_r. auto.
    - destruct (N.eqb_spec x SLASH) as [->|E].
      + destruct (IH [] ltac:(intros [])) as (d & E1 & E2 & E3). exists (cur ++ SLASH :: d). split; [rewrite <- app_assoc; cbn [app] in *; now rewrite <- E1|]. split; [exact E2|].
        right. destruct E3 as [->|(d' & ->)]; [now exists cur|exists (cur ++ SLASH :: d'); now rewrite <- app_assoc].
      + destruct (IH (cur ++ [x])) as (d & E1 & E2); [rewrite in_app_iff; intros [K|[K|[]]]; [now apply H|now apply E]|]. exists d. now rewrite <- app_assoc in E1. }
  exact (K [] ltac:(intros [])).
Qed.
Lemma basename_of d n : ~ In SLASH n -> (d = [] \/ exists d', d = d' ++ [SLASH]) -> basename (d ++ n) = n.
Proof.
  intros Hn [->|(d' & ->)]; unfold basename; [cbn [app]; now rewrite after_last_clean|].
  rewrite <- app_assoc. cbn [app]. rewrite after_last_slash. now rewrite after_last_clean.
Qed.
Lemma is_file_name_spec n : is_file_name n = true <-> n <> [] /\ n <> u "." /\ n <> u "..".
Proof.
  unfold is_file_name. rewrite Bool.negb_true_iff, !Bool.orb_false_iff, !streq_false. tauto.
Qed.
Lemma names_file_spec p : is_file_name (basename p) = true <-> names_file p.
Proof.
  rewrite is_file_name_spec. split.
  - intros H. destruct (basename_parts p) as (d & E & Hn & Hd). exists d, (basename p). tauto.
  - intros (d & n & -> & Hn & Hd & H). now rewrite basename_of.
Qed.
Lemma join_clean d n : d <> [] -> (forall r, d <> r ++ [SLASH]) -> n <> [] -> ~ In SLASH n -> join_path d n = d ++ SLASH :: n.
Proof.
  intros Hd Hs Hn Hc. unfold join_path. destruct n as [|x n]; [contradiction|].
  destruct (N.eqb_spec x SLASH) as [->|_]; [exfalso; apply Hc; now left|]. destruct d as [|y d]; [contradiction|].
  replace (ends_with_slash (y :: d)) with false; [reflexivity|]. symmetry. unfold ends_with_slash.
  destruct (rev (y :: d)) as [|z r] eqn:E; [reflexivity|]. apply N.eqb_neq. intros ->.
  apply (Hs (rev r)). change (rev r ++ [SLASH]) with (rev (SLASH :: r)). rewrite <- E. now rewrite rev_involutive.
Qed.
Lemma scheme_join d n : ~ contains (u "://") d -> (forall r, d <> r ++ [SLASH]) -> ~ In SLASH n -> ~ contains (u "://") (d ++ SLASH :: n).
Proof.
  intros Hd Hs Hn (a & b & E). revert d Hd Hs E. induction a as [|x a IH]; intros d Hd Hs E; cbn [app] in E.
  - change (u "://") with [58%N; SLASH; SLASH] in *. cbn [app] in E.
    destruct d as [|d0 [|d1 [|d2 d]]]; cbn [app] in E.
    + injection E as E _. discriminate.
    + injection E as _ E. apply Hn. rewrite E. now left.
    + injection E as _ -> _. now apply (Hs [d0]).
    + injection E as -> -> -> _. apply Hd. now exists [], d.
  - destruct d as [|y d]; cbn [app] in E.
    + injection E as _ E. apply Hn. rewrite E. apply in_or_app. right. right. now left.
    + injection E as <- E. apply (IH d); auto.
      * intros (p & q & ->). apply Hd. now exists (y :: p), q.
      * intros r ->. now apply (Hs (y :: r)).
Qed.
Lemma below_spec d p : below d p = true <-> exists r, p = d ++ SLASH :: r.
Proof. unfold below. rewrite starts_with_spec. split; intros (r & ->); exists r; now rewrite <- app_assoc. Qed.

(* ---------------------------------------------------------------- *)
(** ** Reading *)
Section Read.
Variables (remote : str -> res str) (temp : str -> files -> str) (parse : str -> parsed).

(** code that reads its file and leaves the files as they were *)
Definition reads_file {A} (St : files -> Prop) (b : @body A) (F : str -> A + read_error) : Prop := forall p f, St f ->
  p <> [] -> ~ contains (u "://") p -> (forall c, f p = Some c -> names_file p) ->
  fst (b p f) = match f p with Some c => F c | None => inr ROs end /\ forall q, snd (b p f) q = f q.

Lemma removed suffix f : new_dir temp suffix f -> forall q, remove_dir (temp suffix f) f q = f q.
Proof.
  intros Htemp q. unfold remove_dir. destruct (below _ q) eqn:E; [|reflexivity]. apply below_spec in E as (r & E).
  destruct (f q) as [c|] eqn:Ef; [|reflexivity]. destruct Htemp as (H & _). exfalso. exact (H q c Ef r E).
Qed.
Lemma in_temp_reads {A} St (b : @body A) F suffix name c f : reads_file St b F -> new_dir temp suffix f ->
  (forall r, St (upd f (temp suffix f ++ SLASH :: r) (Some c))) -> ~ In SLASH name -> is_file_name name = true ->
  fst (in_temp temp suffix name (Ok c) b f) = F c /\ forall q, snd (in_temp temp suffix name (Ok c) b f) q = f q.
Proof.
  intros Hb Htemp HS Hs Hn. unfold in_temp. rewrite Hn. destruct Htemp as (H1 & H2 & H3 & H4).
  pose proof (proj1 (is_file_name_spec name) Hn) as (N1 & N2 & N3).
  rewrite (join_clean _ _ H2 H3 N1 Hs). set (d := temp suffix f) in *. set (p := d ++ SLASH :: name).
  destruct (Hb p (upd f p (Some c))) as [E1 E2].
  - apply HS.
  - unfold p. destruct d; [contradiction|discriminate].
  - now apply scheme_join.
  - intros c' _. exists (d ++ [SLASH]), name. repeat split; auto; [unfold p; now rewrite <- app_assoc|right; now exists d].
  - destruct (b p (upd f p (Some c))) as [r f'] eqn:Eb. cbn [fst snd] in *. split.
    + rewrite E1. unfold upd. now rewrite streq_refl.
    + intros q. unfold remove_dir. destruct (below d q) eqn:Eq.
      * apply below_spec in Eq as (r' & Eq). destruct (f q) as [c'|] eqn:Ef; [|reflexivity]. exfalso. exact (H1 q c' Ef r' Eq).
      * rewrite E2. unfold upd. destruct (streq q p) eqn:Ep; [|reflexivity]. apply streq_true in Ep. subst q. exfalso.
        assert (below d p = true) by (apply below_spec; now exists name). congruence.
Qed.
Lemma in_temp_fails {A} (b : @body A) suffix name e f : new_dir temp suffix f ->
  fst (in_temp temp suffix name (Err e) b f) = inr (RErr e) /\ forall q, snd (in_temp temp suffix name (Err e) b f) q = f q.
Proof. intros H. unfold in_temp. cbn [fst snd]. split; [reflexivity|]. now apply removed. Qed.

Lemma download_reads {A} St (b : @body A) F s f : reads_file St b F -> real_files f -> new_dir temp (u "-input") f ->
  St f -> (forall r c, St (upd f (temp (u "-input") f ++ SLASH :: r) (Some c))) ->
  (forall c, gives remote f s (inl c) -> fst (with_download remote temp s b f) = F c) /\
  (forall e, gives remote f s (inr e) -> fst (with_download remote temp s b f) = inr e) /\
  forall q, snd (with_download remote temp s b f) q = f q.
Proof.
  intros Hb Hf Htemp HS HS'. destruct s as [url|c].
  - destruct url as [|x url'].
    + cbn [with_download]. destruct (in_temp_fails b (u "-input") (u "temp.file") AssertionError f Htemp) as [E1 E2].
      split; [|split; [|exact E2]].
      * intros c H. inversion H as [p c' K|p K|p c' (a & y & K)|p c' (a & y & K)|p e (a & y & K)| | |]; try contradiction;
        symmetry in K; apply app_eq_nil in K as [_ K]; apply app_eq_nil in K as [K _]; discriminate.
      * intros e H. rewrite E1. inversion H as [p c' K|p K|p c' (a & y & K)|p c' (a & y & K)|p e' (a & y & K)| | |]; try contradiction; try reflexivity;
        symmetry in K; apply app_eq_nil in K as [_ K]; apply app_eq_nil in K as [K _]; discriminate.
    + cbn [with_download]. remember (x :: url') as url eqn:Eu. destruct (has_scheme url) eqn:Es; cbn [negb].
      * apply has_scheme_spec in Es. destruct (remote url) as [c|e] eqn:Er.
        -- destruct (is_file_name (basename url)) eqn:En.
           ++ destruct (basename_parts url) as (d & _ & Hs & _). destruct (in_temp_reads St b F (u "-input") (basename url) c f Hb Htemp (fun r => HS' r c) Hs En) as [E1 E2].
              split; [|split; [|exact E2]].
              ** intros c' H. rewrite E1. inversion H; subst; try contradiction; try congruence.
              ** intros e H. apply names_file_spec in En. inversion H; subst; try contradiction; try congruence.
           ++ assert (Hn : ~ names_file url) by (intros K; apply names_file_spec in K; congruence).
              unfold in_temp. rewrite En. cbn [fst snd]. split; [|split; [|now apply removed]].
              ** intros c' H. inversion H; subst; try contradiction; try congruence.
              ** intros e H. inversion H; subst; try contradiction; try congruence.
        -- destruct (in_temp_fails b (u "-input") (basename url) e f Htemp) as [E1 E2]. split; [|split; [|exact E2]].
           ++ intros c' H. inversion H; subst; try contradiction; try congruence.
           ++ intros e' H. rewrite E1. inversion H; subst; try contradiction; try congruence.
      * assert (Hc : ~ contains (u "://") url) by (intros K; apply has_scheme_spec in K; congruence).
        destruct (Hb url f) as [E1 E2]; [exact HS|subst url; discriminate|exact Hc|apply Hf|]. split; [|split; [|exact E2]].
        -- intros c H. rewrite E1. inversion H; subst; try contradiction. match goal with K : f _ = Some _ |- _ => now rewrite K end.
        -- intros e H. rewrite E1. inversion H; subst; try contradiction; try discriminate. match goal with K : f _ = None |- _ => now rewrite K end.
  - cbn [with_download]. destruct c as [c|e].
    + destruct (in_temp_reads St b F (u "-input") (u "temp.file") c f Hb Htemp (fun r => HS' r c)) as [E1 E2]; [intros K; cbn in K; repeat (destruct K as [K|K]; [discriminate|]); exact K|reflexivity|].
      split; [|split; [|exact E2]]; intros x H; inversion H; subst; congruence.
    + destruct (in_temp_fails b (u "-input") (u "temp.file") e f Htemp) as [E1 E2]. split; [|split; [|exact E2]]; intros x H; inversion H; subst; congruence.
Qed.

Definition lift (r : (ostr * node) + xml_error) : (ostr * node) + read_error := match r with inl d => inl d | inr e => inr (RXml e) end.
Definition lift_jats (r : (ostr * node * bool) + xml_error) : (ostr * node * bool) + read_error := match r with inl d => inl d | inr e => inr (RXml e) end.
Lemma parse_path_reads : reads_file (fun _ => True) (parse_path parse) (fun c => lift (parse_data parse c)).
Proof. intros p f _ _ _ _. unfold parse_path. cbn [fst snd]. now destruct (f p) as [c|]. Qed.
Lemma fixed_reads (fix_xml : bool) : reads_file (new_dir temp (u "-input-fixed")) (fun p f =>
    if fix_xml then match f p with None => (inr ROs : (ostr * node) + read_error, f) | Some data => in_temp temp (u "-input-fixed") (basename p) (Ok (fix_data data)) (parse_path parse) f end
    else parse_path parse p f) (fun c => lift (parse_xml parse fix_xml c)).
Proof.
  intros p f Htemp Hp Hs Hn. destruct fix_xml; [|now apply parse_path_reads]. destruct (f p) as [c|] eqn:E; [|now cbn].
  destruct (basename_parts p) as (d & _ & Hd & _). pose proof (proj2 (names_file_spec p) (Hn c eq_refl)) as K.
  exact (in_temp_reads _ _ _ _ _ _ f parse_path_reads Htemp (fun _ => I) Hd K).
Qed.

Lemma upd_dir d f r v : forall p, upd f (d ++ SLASH :: r) v p = f p \/ exists r', p = d ++ SLASH :: r'.
Proof. intros p. unfold upd. destruct (streq p _) eqn:E; [|now left]. apply streq_true in E. right. now exists r. Qed.
(** What is parsed is exactly the content of the source, repaired if asked for; and afterwards
    all files are as they were: nothing is written but into temporary directories, and these
    are gone.  *)
Theorem C127_read fix_xml s f : real_files f -> new_dirs temp f ->
  (forall c, gives remote f s (inl c) -> fst (parse_source remote temp parse fix_xml s f) = lift (parse_xml parse fix_xml c)) /\
  (forall e, gives remote f s (inr e) -> fst (parse_source remote temp parse fix_xml s f) = inr e) /\
  forall p, snd (parse_source remote temp parse fix_xml s f) p = f p.
Proof.
  intros Hf [H1 H2]. unfold parse_source, with_fixed. apply (download_reads _ _ _ _ _ (fixed_reads fix_xml) Hf H1).
  - apply H2. now left.
  - intros r c. apply H2. apply upd_dir.
Qed.

(** The same for articles, which are read a second time if they are malformed. *)
Theorem C127_article s f : real_files f -> new_dirs temp f ->
  (forall c, gives remote f s (inl c) -> fst (read_source remote temp parse s f) = lift_jats (read_jats parse c)) /\
  (forall e, gives remote f s (inr e) -> fst (read_source remote temp parse s f) = inr e) /\
  forall p, snd (read_source remote temp parse s f) p = f p.
Proof.
  intros Hf [H1 H2]. unfold read_source.
  apply (download_reads (fun g => forall g', (forall q, g' q = g q) -> new_dir temp (u "-input-fixed") g') _ (fun c => lift_jats (read_jats parse c)) s f); [|exact Hf|exact H1| |].
  2: { intros g' E. apply H2. intros p. left. apply E. }
  2: { intros r c g' E. apply H2. intros p. rewrite E. apply upd_dir. }
  clear s f Hf H1 H2. intros p f Ht Hp Hs Hn.
  assert (K : forall fix_xml g, new_dir temp (u "-input-fixed") g -> (forall c, g p = Some c -> names_file p) ->
     fst (parse_source remote temp parse fix_xml (Named p) g) = match g p with Some c => lift (parse_xml parse fix_xml c) | None => inr ROs end /\
     forall q, snd (parse_source remote temp parse fix_xml (Named p) g) q = g q).
  { intros fx g Htg Hg. unfold parse_source, with_fixed, with_download. destruct p as [|x p']; [contradiction|].
    destruct (has_scheme (x :: p')) eqn:E; [apply has_scheme_spec in E; contradiction|]. cbn [negb]. exact (fixed_reads fx _ g Htg Hp Hs Hg). }
  destruct (K false f (Ht f (fun q => eq_refl)) Hn) as [E1 E2]. destruct (parse_source remote temp parse false (Named p) f) as [r f'] eqn:P. cbn [fst snd] in E1, E2.
  destruct (f p) as [c|] eqn:Ec.
  - unfold read_jats. destruct (parse_xml parse false c) as [d|e] eqn:X; subst r; cbn [lift]; [now cbn|].
    cbn [is_caught]. destruct (is_value_error e) eqn:V; [|now cbn].
    destruct (K true f' (Ht f' E2)) as [G1 G2]; [intros c' _; now apply (Hn c)|]. destruct (parse_source remote temp parse true (Named p) f') as [r' f''] eqn:P'. cbn [fst snd] in G1, G2.
    rewrite E2, Ec in G1. subst r'. destruct (parse_xml parse true c) as [d'|e'] eqn:X'; cbn [lift fst snd]; (split; [reflexivity|]); intros q; now rewrite G2.
  - subst r. now cbn.
Qed.
End Read.

(** Every source gives something, and only one thing. *)
Theorem C127_gives remote f s : exists r, gives remote f s r /\ forall r', gives remote f s r' -> r' = r.
Proof.
  destruct s as [p|[c|e]].
  - destruct p as [|x p'].
    + exists (inr (RErr AssertionError)). split; [apply gives_nothing|]. intros r' H.
      inversion H as [p c' K|p K|p c' (a & y & K)|p c' (a & y & K)|p e (a & y & K)| | |]; try contradiction; try reflexivity;
      symmetry in K; apply app_eq_nil in K as [_ K]; apply app_eq_nil in K as [K _]; discriminate.
    + remember (x :: p') as p eqn:Ep. assert (Hp : p <> []) by (subst; discriminate). destruct (has_scheme p) eqn:Es.
      * apply has_scheme_spec in Es. destruct (remote p) as [c|e] eqn:Er.
        -- destruct (is_file_name (basename p)) eqn:En.
           ++ apply names_file_spec in En. exists (inl c). split; [now apply gives_remote|]. intros r' H. inversion H; subst; try contradiction; congruence.
           ++ assert (Hn : ~ names_file p) by (intros K; apply names_file_spec in K; congruence).
              exists (inr ROs). split; [now apply gives_unnamed with c|]. intros r' H. inversion H; subst; try contradiction; try congruence.
        -- exists (inr (RErr e)). split; [now apply gives_unreachable|]. intros r' H. inversion H; subst; try contradiction; congruence.
      * assert (Hc : ~ contains (u "://") p) by (intros K; apply has_scheme_spec in K; congruence).
        destruct (f p) as [c|] eqn:Ef.
        -- exists (inl c). split; [now apply gives_local|]. intros r' H. inversion H; subst; try contradiction; congruence.
        -- exists (inr ROs). split; [now apply gives_absent|]. intros r' H. inversion H; subst; try contradiction; congruence.
  - exists (inl c). split; [constructor|]. intros r' H. now inversion H.
  - exists (inr (RErr e)). split; [constructor|]. intros r' H. now inversion H.
Qed.

(* ---------------------------------------------------------------- *)
(** ** Example: a remote article that has to be repaired *)
Definition ex_temp (suffix : str) (_ : files) : str := u "/tmp/x" ++ suffix.
Definition ex_files : files := fun p => if streq p (u "/data/a.xml") then Some (u "<a/>") else None.
Definition ex_remote (url : str) : res str :=
  if streq url (u "gs://b/a.xml") then Ok (u " <a>&dagger;</a>") else if streq url (u "gs://b/") then Ok [] else Err ValueError.
(** a parser that knows no entities but numbers *)
Definition ex_parse (s : str) : parsed :=
  if streq s (u "<a>&#x2020;</a>") then PDoc None (El None (u "a") [] (Some [8224%N]) [] None) else PSyntax 1.
Example C127_ex :
  real_files ex_files /\ new_dirs ex_temp ex_files /\
  gives ex_remote ex_files (Named (u "gs://b/a.xml")) (inl (u " <a>&dagger;</a>")) /\
  fst (read_source ex_remote ex_temp ex_parse (Named (u "gs://b/a.xml")) ex_files)
    = inl (None, El None (u "a") [] (Some [8224%N]) [] None, true) /\
  fst (parse_source ex_remote ex_temp ex_parse false (Named (u "gs://b/a.xml")) ex_files) = inr (RXml (XLine (u " <a>&dagger;</a>"))) /\
  gives ex_remote ex_files (Named (u "gs://b/")) (inr ROs).
Proof.
  assert (Hs : forall s, has_scheme s = false -> ~ contains (u "://") s) by (intros s E K; apply has_scheme_spec in K; congruence).
  assert (Hc : forall s, has_scheme s = true -> contains (u "://") s) by (intros s E; now apply has_scheme_spec).
  assert (Hd : forall suffix f, (forall p c, f p = Some c -> below (ex_temp suffix f) p = false) -> has_scheme (ex_temp suffix f) = false ->
    ends_with_slash (ex_temp suffix f) = false -> new_dir ex_temp suffix f).
  { intros suffix f H1 H2 H3. split; [|split; [discriminate|split; [|now apply Hs]]].
    - intros p c E r ->. apply H1 in E. assert (below (ex_temp suffix f) (ex_temp suffix f ++ SLASH :: r) = true) by (apply below_spec; eauto). congruence.
    - intros r E. rewrite E in H3. unfold ends_with_slash in H3. rewrite rev_app_distr in H3. discriminate. }
  assert (Hf : forall p c, ex_files p = Some c -> p = u "/data/a.xml").
  { intros p c E. unfold ex_files in E. destruct (streq p _) eqn:Ep; [now apply streq_true|discriminate]. }
  split; [intros p c E; apply Hf in E as ->; apply names_file_spec; reflexivity|].
  split.
  { split; [apply Hd; [intros p c E; apply Hf in E as ->; reflexivity|reflexivity|reflexivity]|].
    intros g Hg. apply Hd; [|reflexivity|reflexivity]. intros p c E. destruct (Hg p) as [Ep|(r & ->)]; [|reflexivity]. rewrite Ep in E. apply Hf in E as ->. reflexivity. }
  split; [apply gives_remote; [apply Hc; reflexivity|reflexivity|apply names_file_spec; reflexivity]|].
  split; [vm_compute; reflexivity|]. split; [vm_compute; reflexivity|].
  apply gives_unnamed with []; [apply Hc; reflexivity|reflexivity|]. intros K. apply names_file_spec in K. discriminate.
Qed.

Print Assumptions C127_read.
Print Assumptions C127_article.
Print Assumptions C127_gives.
