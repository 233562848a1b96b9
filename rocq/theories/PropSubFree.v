(** C135: sub annotations do not change what is found for the main tags *)
From Verif Require Import Base ModelTags ModelTokenize ModelTei ModelTeiDoc ModelJoined ModelExtend ModelClusters
  ModelTarget ModelReference ModelSimpleMatch PropSimpleMatch PropAlike PropAlikeSimple.
Open Scope nat_scope.
Open Scope list_scope.

(* ---------------------------------------------------------------- *)
(** ** Specification *)
(** the same settings without sub annotations *)
Definition without_subs (c : config) : config :=
  mkConfig (cf_lookahead c) (cf_min_token_length c) (cf_exact c) (cf_begin_prefix c) (cf_extend c) false (cf_preserve_sub c) (cf_tags c).
Definition sub_tags (d : doc) : list (list ostr) := map (map sub) d.

(* ---------------------------------------------------------------- *)
Definition fwd {A} (R : A -> A -> Prop) (x y : res A) : Prop := match x with Ok a => exists b, y = Ok b /\ R a b | Err _ => True end.
Lemma fwd_bind {A B} (R : A -> A -> Prop) (S : B -> B -> Prop) x y f g : fwd R x y -> (forall a b, R a b -> fwd S (f a) (g b)) ->
  fwd S (bind x f) (bind y g).
Proof. destruct x as [a|]; cbn; [|trivial]. intros (b & -> & H) Hf. now apply Hf. Qed.
Lemma fwd_fold {A B} (R : B -> B -> Prop) (f g : B -> A -> res B) l : (forall b b' x, R b b' -> fwd R (f b x) (g b' x)) ->
  forall b b', R b b' -> fwd R (foldM f b l) (foldM g b' l).
Proof.
  intros Hf. induction l as [|x l IH]; intros b b' Hb; cbn [foldM]; [now exists b'|].
  apply (fwd_bind R); [now apply Hf|]. intros c c' Hc. now apply IH.
Qed.

Section C135.
Variable sp : N -> bool.
Variable wd : N -> bool.
Variable lower : str -> str.
Variable escape_re : str -> str.
Variable re_search : str -> str -> option Z.
Variable search_chunks : str -> str -> nat -> res (option (list irange)).
Variable search_all : str -> str -> list (res irange).
Variable sub_only : bool.
Notation M := (Forall2 (Forall2 (main_same sp lower))).
Notation annotate := (fun c => simple_annotate sp wd lower escape_re re_search search_chunks search_all c sub_only).

Lemma m_refl d : M d d.
Proof. induction d as [|l d IH]; constructor; [|exact IH]. induction l; constructor; [repeat split|assumption]. Qed.
Lemma s_range c text a d d' r : M d d' -> fwd M
  (range_step sp lower escape_re re_search search_all c sub_only text a d r)
  (range_step sp lower escape_re re_search search_all (without_subs c) sub_only text a d' r).
Proof.
  intros H. unfold range_step. cbn [cf_use_sub without_subs].
  change (with_prefix escape_re re_search (without_subs c) text r a) with (with_prefix escape_re re_search c text r a).
  change (update_range sp (without_subs c) sub_only) with (update_range sp c sub_only).
  pose proof (m_update_range sp lower c sub_only text (with_prefix escape_re re_search c text r a) (an_name a) d d' H) as U.
  destruct (cf_use_sub c); [|now eexists]. destruct (sub_annotations _ _ _ _ _ _ _ _) as [e|] eqn:E; [|exact I]. cbn. eexists. split; [reflexivity|].
  apply k_sub in E. eapply mk_doc; [exact U|exact E|apply k_refl].
Qed.
Lemma s_process c all a s s' : st_same sp lower s s' -> fwd (st_same sp lower)
  (process_one sp wd lower escape_re re_search search_chunks search_all c sub_only all s a)
  (process_one sp wd lower escape_re re_search search_chunks search_all (without_subs c) sub_only all s' a).
Proof.
  intros (H & E1 & E2 & E3). unfold process_one. rewrite <- E1, <- E2, <- E3, <- !(m_pending _ _ _ _ _ _ H).
  change (matching_ranges sp wd lower search_chunks (without_subs c)) with (matching_ranges sp wd lower search_chunks c).
  change (cf_lookahead (without_subs c)) with (cf_lookahead c). change (block_name (without_subs c)) with (block_name c).
  destruct (matching_ranges _ _ _ _ _ _) as [[|r rs]|]; cbn [bind]; [| |exact I].
  - destruct (ostreq _ _); [cbn; eexists; split; [reflexivity|]; split; auto|].
    destruct (matching_ranges _ _ _ _ _ _) as [[|r rs]|]; cbn [bind]; [cbn; eexists; split; [reflexivity|]; split; auto| |exact I].
    destruct (merge_index_ranges _) as [m|]; cbn [bind]; [|exact I].
    apply (fwd_bind M); [apply fwd_fold; [|exact H]; intros; now apply s_range|]. intros e e' He. cbn. eexists; split; [reflexivity|]; split; auto.
  - apply (fwd_bind M); [apply fwd_fold; [|exact H]; intros; now apply s_range|]. intros e e' He. cbn. eexists; split; [reflexivity|]; split; auto.
Qed.
Lemma s_loop c fuel : forall targets d d', M d d' -> fwd M
  (annotate_loop sp wd lower escape_re re_search search_chunks search_all c sub_only fuel targets d)
  (annotate_loop sp wd lower escape_re re_search search_chunks search_all (without_subs c) sub_only fuel targets d').
Proof.
  induction fuel as [|fuel IH]; intros [|a targets] d d' H; cbn [annotate_loop]; [now exists d'|exact I|now exists d'|].
  apply (fwd_bind (st_same sp lower)).
  - unfold process_targets. rewrite <- (m_initial _ _ d d' H). apply fwd_fold; [intros; now apply s_process|]. split; auto.
  - intros s s' (Hd & _ & _ & El). rewrite <- El. destruct (Nat.eqb _ _); [cbn; now eexists|]. now apply IH.
Qed.
Lemma main_tags_same d d' : M d d' -> main_tags d = main_tags d'.
Proof.
  unfold main_tags. induction 1 as [|l l' d d' Hl H IH]; [reflexivity|]. cbn [map]. rewrite IH. f_equal.
  induction Hl as [|x y l l' (_ & _ & Hx & _) Hl IHl]; [reflexivity|]. cbn [map]. now rewrite Hx, IHl.
Qed.
(** A run with sub annotations has the main tags of the run without. *)
Theorem C135_main c fuel targets d r : annotate c fuel targets d = Ok r ->
  exists r', annotate (without_subs c) fuel targets d = Ok r' /\ main_tags r' = main_tags r.
Proof.
  intros E. pose proof (s_loop c fuel targets d d (m_refl d)) as X. unfold simple_annotate in *.
  destruct (annotate_loop sp wd lower escape_re re_search search_chunks search_all c sub_only fuel targets d) as [e|]; [|discriminate]. cbn [bind] in E. cbn [fwd] in X.
  destruct X as (e' & -> & H). cbn [bind]. eexists. split; [reflexivity|]. injection E as <-. symmetry. apply main_tags_same.
  change (cf_extend (without_subs c)) with (cf_extend c). change (extend_lines sp (without_subs c)) with (extend_lines sp c).
  destruct (cf_extend c && negb sub_only); [now apply m_extend|exact H].
Qed.

(** sub tags without sub annotations *)
Notation S := (Forall2 (Forall2 (fun x y => sub x = sub y))).
Lemma s_refl d : S d d.
Proof. induction d as [|l d IH]; constructor; [|exact IH]. induction l; constructor; auto. Qed.
Lemma sub_tags_same d d' : S d d' -> sub_tags d = sub_tags d'.
Proof.
  unfold sub_tags. induction 1 as [|l l' d d' Hl H IH]; [reflexivity|]. cbn [map]. rewrite IH. f_equal.
  induction Hl as [|x y l l' Hx Hl IHl]; [reflexivity|]. cbn [map]. now rewrite Hx, IHl.
Qed.
Lemma clear_sub lv j l : map sub (clear_same_preserved lv j l) = map sub l.
Proof.
  unfold clear_same_preserved. destruct (nth_error l j); [|reflexivity]. destruct (truthy _); [|reflexivity]. rewrite map_map. apply map_ext. intros x.
  destruct (ostreq _ _); [|reflexivity]. now destruct lv.
Qed.
Lemma update_sub (f : tok -> tok) n l : (forall x, sub (f x) = sub x) -> map sub (update_nth n f l) = map sub l.
Proof. intros Hf. revert n. induction l as [|x l IH]; intros [|n]; cbn [update_nth map]; [reflexivity|reflexivity|now rewrite Hf|now rewrite IH]. Qed.
Lemma update_subs (f : line -> line) n d : (forall l, map sub (f l) = map sub l) -> sub_tags (update_nth n f d) = sub_tags d.
Proof. unfold sub_tags. intros Hf. revert n. induction d as [|x l IH]; intros [|n]; cbn [update_nth map]; [reflexivity|reflexivity|now rewrite Hf|now rewrite IH]. Qed.
Lemma set_tag_subs p v d : sub_tags (set_tag sp LMain p v d) = sub_tags d.
Proof.
  unfold set_tag. apply update_subs. intros l. unfold set_tag_line. destruct (nth_error l (snd p)) as [x|]; [|reflexivity].
  assert (U : map sub (update_nth (snd p) (set_tag_only LMain v) l) = map sub l) by (apply update_sub; reflexivity).
  destruct (is_space sp x); [exact U|]. destruct (ostreq _ _); [exact U|]. now rewrite !clear_sub, U.
Qed.
Lemma set_main_subs c p v d : sub_tags (set_main sp c p v d) = sub_tags d.
Proof.
  unfold set_main. destruct (cf_preserve_sub c); [|apply set_tag_subs]. unfold set_tag_only_at. apply update_subs. intros l. now apply update_sub.
Qed.
Lemma fold_subs {A} (f : doc -> A -> doc) l : (forall d x, sub_tags (f d x) = sub_tags d) -> forall d, sub_tags (fold_left f l d) = sub_tags d.
Proof. intros Hf. induction l as [|x l IH]; intros d; cbn [fold_left]; [reflexivity|]. now rewrite IH, Hf. Qed.
Lemma foldM_subs {A} (f : doc -> A -> res doc) l : (forall d x r, f d x = Ok r -> sub_tags r = sub_tags d) -> forall d r, foldM f d l = Ok r -> sub_tags r = sub_tags d.
Proof.
  intros Hf. induction l as [|x l IH]; intros d r; cbn [foldM]; [now intros [= <-]|]. destruct (f d x) as [e|] eqn:E; [|discriminate]. cbn [bind]. intros H.
  rewrite (IH _ _ H). now apply (Hf _ x).
Qed.
(** Without sub annotations sub tags stay as they are. *)
Theorem C135_sub c fuel targets d r : cf_use_sub c = false -> annotate c fuel targets d = Ok r -> sub_tags r = sub_tags d.
Proof.
  intros Hs. assert (R : forall text a d r0 r, range_step sp lower escape_re re_search search_all c sub_only text a d r0 = Ok r -> sub_tags r = sub_tags d).
  { intros text a e r0 e'. unfold range_step. rewrite Hs. intros [= <-]. unfold update_range. destruct sub_only; [reflexivity|]. apply fold_subs. intros; apply set_main_subs. }
  assert (P : forall all s a s', process_one sp wd lower escape_re re_search search_chunks search_all c sub_only all s a = Ok s' -> sub_tags (st_doc s') = sub_tags (st_doc s)).
  { intros all s a s'. unfold process_one. destruct (matching_ranges _ _ _ _ _ _) as [[|x rs]|]; cbn [bind]; [| |discriminate].
    - destruct (ostreq _ _); [now intros [= <-]|]. destruct (matching_ranges _ _ _ _ _ _) as [[|x rs]|]; cbn [bind]; [now intros [= <-]| |discriminate].
      destruct (merge_index_ranges _); cbn [bind]; [|discriminate]. destruct (foldM _ _ _) as [e|] eqn:E; cbn [bind]; [|discriminate]. intros [= <-]. cbn [st_doc].
      eapply foldM_subs; [|exact E]. intros; eapply R; eassumption.
    - destruct (foldM _ _ _) as [e|] eqn:E; cbn [bind]; [|discriminate]. intros [= <-]. cbn [st_doc].
      eapply foldM_subs; [|exact E]. intros; eapply R; eassumption. }
  assert (Q : forall all l s s', foldM (process_one sp wd lower escape_re re_search search_chunks search_all c sub_only all) s l = Ok s' -> sub_tags (st_doc s') = sub_tags (st_doc s)).
  { intros all l. induction l as [|x l IH]; intros s s'; cbn [foldM]; [now intros [= <-]|].
    destruct (process_one _ _ _ _ _ _ _ _ _ _ s x) as [e|] eqn:E; [|discriminate]. cbn [bind]. intros H. rewrite (IH _ _ H). now apply (P _ _ _ _ E). }
  assert (L : forall fuel targets d r, annotate_loop sp wd lower escape_re re_search search_chunks search_all c sub_only fuel targets d = Ok r -> sub_tags r = sub_tags d).
  { clear -Q. induction fuel as [|fuel IH]; intros [|a targets] d r; cbn [annotate_loop]; try (now intros [= <-]); try discriminate.
    destruct (process_targets _ _ _ _ _ _ _ _ _ _ _) as [s|] eqn:E; [|discriminate]. cbn [bind]. unfold process_targets in E. apply Q in E. cbn [st_doc] in E.
    destruct (Nat.eqb _ _); [intros [= <-]; exact E|]. intros H. rewrite (IH _ _ _ H). exact E. }
  unfold simple_annotate. destruct (annotate_loop _ _ _ _ _ _ _ _ _ _ _ _) as [e|] eqn:E; [|discriminate]. cbn [bind]. intros [= <-]. apply L in E. rewrite <- E.
  destruct (cf_extend c && negb sub_only); [|reflexivity]. unfold extend_lines. apply fold_subs. intros f ps. unfold extend_line. apply fold_subs.
  intros g x. destruct (truthy _); [apply set_tag_subs|reflexivity].
Qed.
End C135.

(* ---------------------------------------------------------------- *)
(** ** Examples *)
Notation run c := (simple_annotate ascii_space ascii_word lower_ascii (fun s => s) no_regex exact_chunks exact_all c false 3 ex_targets ex_doc).
Example C135_ex : exists r r', run ex_config = Ok r /\ run (without_subs ex_config) = Ok r' /\
  main_tags r = [[Some (u "b-title"); Some (u "i-title"); Some (u "i-title")]; [Some (u "b-author"); Some (u "i-author"); Some (u "i-author")]] /\
  main_tags r' = main_tags r /\ sub_tags r = [[None; Some (u "b-word"); None]; [None; None; None]] /\ sub_tags r' = sub_tags ex_doc.
Proof. eexists. eexists. split; [vm_compute; reflexivity|]. split; [vm_compute; reflexivity|]. repeat split. Qed.
(** The other way round it is false: sub annotations can make the run fail. *)
Theorem C135_failure_refuted : exists c targets d, Forall (fun a : tann => exists v, an_value a = VOne v) targets /\
  (exists r, simple_annotate ascii_space ascii_word lower_ascii (fun s => s) no_regex exact_chunks exact_all (without_subs c) false 3 targets d = Ok r) /\
  simple_annotate ascii_space ascii_word lower_ascii (fun s => s) no_regex exact_chunks exact_all c false 3 targets d = Err AssertionError.
Proof.
  exists ex_config, [mkTann (u "title") (VOne (u "the title")) [(u "word", VMany [u "Title"])]], ex_doc.
  split; [constructor; [now eexists|constructor]|]. split; [eexists; vm_compute; reflexivity|vm_compute; reflexivity].
Qed.

Print Assumptions C135_main.
Print Assumptions C135_sub.
Print Assumptions C135_failure_refuted.
