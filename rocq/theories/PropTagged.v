(** C136: words that have a tag already do not matter for the search *)
From Verif Require Import Base ModelTags ModelTokenize ModelTei ModelTeiDoc ModelJoined ModelExtend ModelClusters
  ModelTarget ModelReference ModelFuzzyMatch ModelWordMatch ModelSimpleMatch PropSimpleMatch PropMatch PropAlike PropAlikeSimple PropSimpleMarks.
Open Scope nat_scope.
Open Scope list_scope.

(* ---------------------------------------------------------------- *)
(** ** Specification *)
Section Spec.
Variable sp : N -> bool.
Variable lower : str -> str.
Definition has_tag (x : tok) : Prop := exists t, tag x = Some t /\ t <> [].
(** the same main tags; words without tag read alike, those with a tag may be any words *)
Definition tok_free_alike (x y : tok) : Prop :=
  (has_tag x \/ reads_alike lower (strip sp (tx x)) (strip sp (tx y)) /\ ws x = ws y) /\
  (all_spaces sp (tx x) <-> all_spaces sp (tx y)) /\ tag x = tag y /\ ptag x = ptag y.
Definition doc_free_alike (d d' : doc) : Prop := Forall2 (Forall2 tok_free_alike) d d'.
End Spec.

(* ---------------------------------------------------------------- *)
Section C136.
Variable sp : N -> bool.
Variable wd : N -> bool.
Variable lower : str -> str.
Variable escape_re : str -> str.
Variable re_search : str -> str -> option Z.
Variable search_chunks : str -> str -> nat -> res (option (list irange)).
Variable search_all : str -> str -> list (res irange).
Variable c : config.
Variable sub_only : bool.
Definition free_same (x y : tok) : Prop :=
  (truthy (tag x) = true \/ normalise_str lower (strip sp (tx x)) = normalise_str lower (strip sp (tx y)) /\ ws x = ws y) /\ is_space sp x = is_space sp y /\
  tag x = tag y /\ ptag x = ptag y.
Notation ST := (cf_use_sub c = false).
Notation M := (Forall2 (Forall2 free_same)).
Notation K := (Forall2 (Forall2 kept)).
Notation annotate := (simple_annotate sp wd lower escape_re re_search search_chunks search_all c sub_only).
Notation range_step := (range_step sp lower escape_re re_search search_all c sub_only).
Notation process_one := (process_one sp wd lower escape_re re_search search_chunks search_all c sub_only).
Notation process_targets := (process_targets sp wd lower escape_re re_search search_chunks search_all c sub_only).
Notation annotate_loop := (annotate_loop sp wd lower escape_re re_search search_chunks search_all c sub_only).

Lemma has_tag_spec x : has_tag x <-> truthy (tag x) = true.
Proof.
  unfold has_tag. destruct (tag x) as [[|n t]|]; cbn; (split; [intros (t' & E & Hn); try discriminate E; try reflexivity; injection E as <-; congruence|intros E; try discriminate E]).
  exists (n :: t). split; [reflexivity|discriminate].
Qed.
Lemma free_alike_same x y : tok_free_alike sp lower x y <-> free_same x y.
Proof.
  unfold tok_free_alike, free_same. rewrite alike_normal, <- !space_spec, has_tag_spec. split; intros (H1 & H2 & H3).
  - split; [exact H1|]. split; [|exact H3]. destruct (is_space sp x), (is_space sp y); try reflexivity; [symmetry|]; apply H2; reflexivity.
  - split; [exact H1|]. split; [|exact H3]. rewrite H2. reflexivity.
Qed.
Lemma doc_free_same d d' : doc_free_alike sp lower d d' <-> M d d'.
Proof.
  unfold doc_free_alike. split; intros H; (eapply Forall2_weaken; [|exact H]); cbn beta; intros l l' Hl; (eapply Forall2_weaken; [|exact Hl]); apply free_alike_same.
Qed.
Lemma m_at_pos d d' p : M d d' -> match at_pos d p, at_pos d' p with Some x, Some y => free_same x y | None, None => True | _, _ => False end.
Proof.
  intros H. unfold at_pos. pose proof (Forall2_nth _ _ _ H (fst p)) as X. unfold doc, line in *.
  destruct (nth_error d (fst p)) as [l|], (nth_error d' (fst p)) as [l'|]; try exact I; try contradiction. exact (Forall2_nth _ _ _ X (snd p)).
Qed.
Lemma m_main_tag d d' p : M d d' -> main_tag d p = main_tag d' p.
Proof. intros H. pose proof (m_at_pos d d' p H) as X. unfold main_tag. destruct (at_pos d p), (at_pos d' p); try contradiction; [apply X|reflexivity]. Qed.
Lemma m_untagged d d' p : M d d' -> untagged d p = untagged d' p.
Proof. intros H. unfold untagged. now rewrite (m_main_tag d d' p H). Qed.
Lemma m_wrap d d' ps : M d d' -> Forall (fun p => untagged d p = true) ps -> wrap sp (normalise lower) d ps = wrap sp (normalise lower) d' ps.
Proof.
  intros H Hu. induction Hu as [|p ps Hp Hu IH]; [reflexivity|]. cbn [wrap flat_map]. unfold wrap in IH. rewrite IH. f_equal.
  pose proof (m_at_pos d d' p H) as X. unfold untagged, main_tag in Hp. destruct (at_pos d p) as [x|], (at_pos d' p) as [y|]; try contradiction; [|reflexivity].
  destruct X as ([X|(X1 & X2)] & _); [rewrite X in Hp; discriminate|]. unfold normalise. now rewrite X1, X2.
Qed.
Lemma m_pending d d' limit qs : M d d' -> pending_text sp lower limit d qs = pending_text sp lower limit d' qs.
Proof.
  intros H. unfold pending_text. assert (E : pending_sequences (fun p => negb (untagged d p)) limit qs = pending_sequences (fun p => negb (untagged d' p)) limit qs).
  { unfold pending_sequences. replace (flat_map (untagged_sub_sequences (fun p => negb (untagged d p))) qs) with (flat_map (untagged_sub_sequences (fun p => negb (untagged d' p))) qs); [reflexivity|].
    induction qs as [|q qs IH]; [reflexivity|]. cbn [flat_map]. rewrite IH. f_equal. apply untagged_ext. intros p. now rewrite (m_untagged d d' p H). }
  rewrite <- E. apply map_ext_in. intros ps Hps. apply m_wrap; [exact H|]. apply Forall_forall. intros p Hp.
  destruct (pending_prefix (fun p => negb (untagged d p)) limit qs) as (rest & F).
  assert (X : In p (filter (fun t => negb (negb (untagged d t))) (concat qs))) by (rewrite F; apply in_or_app; left; apply in_concat; now exists ps).
  apply filter_In in X as [_ X]. now rewrite negb_involutive in X.
Qed.
Lemma m_line_words d d' : M d d' -> forall i, line_words sp i d = line_words sp i d'.
Proof.
  induction 1 as [|l l' d d' Hl H IH]; intros i; [reflexivity|]. cbn [line_words]. rewrite IH. f_equal.
  generalize 0. induction Hl as [|x y l l' (_ & Hx & _) Hl IHl]; intros j; [reflexivity|]. cbn [word_indices]. now rewrite Hx, IHl.
Qed.
Lemma m_initial d d' : M d d' -> initial_sequences sp d = initial_sequences sp d'.
Proof.
  intros H. unfold initial_sequences. rewrite (m_line_words d d' H). f_equal. apply map_ext. intros ps. apply filter_ext. intros p. now apply m_untagged.
Qed.
Lemma m_clear lv j l l' : Forall2 free_same l l' -> lv = LMain -> Forall2 free_same (clear_same_preserved lv j l) (clear_same_preserved lv j l').
Proof.
  intros H ->. unfold clear_same_preserved. pose proof (Forall2_nth _ _ _ H j) as X. unfold line in *.
  destruct (nth_error l j) as [x|], (nth_error l' j) as [y|]; try contradiction; [|exact H].
  cbn [get_preserved_tag]. replace (ptag x) with (ptag y) by (symmetry; apply X). destruct (truthy _); [|exact H]. clear X.
  induction H as [|a b l l' Ha H IH]; [constructor|]. cbn [map]. constructor; [|exact IH].
  replace (ptag a) with (ptag b) by (symmetry; apply Ha). destruct (ostreq _ _); [|exact Ha]. destruct Ha as (A1 & A2 & A3 & A4). split; [exact A1|]. split; [exact A2|]. split; [exact A3|reflexivity].
Qed.
Lemma mk x y x' y' : free_same x y -> kept x x' -> kept y y' -> free_same x' y'.
Proof. intros (A & B & C & D) (A1 & A2 & A3 & A4) (B1 & B2 & B3 & B4). unfold free_same, is_space in *. rewrite <- A1, <- B1, <- A2, <- B2, <- A3, <- B3, <- A4, <- B4. auto. Qed.
Lemma mk_line l l' m m' : Forall2 free_same l l' -> Forall2 kept l m -> Forall2 kept l' m' -> Forall2 free_same m m'.
Proof. intros H. revert m m'. induction H as [|x y l l' Hx H IH]; intros m m' H1 H2; inversion H1; inversion H2; subst; constructor; eauto using mk. Qed.
Lemma mk_doc l l' m m' : M l l' -> K l m -> K l' m' -> M m m'.
Proof. intros H. revert m m'. induction H as [|x y l l' Hx H IH]; intros m m' H1 H2; inversion H1; inversion H2; subst; constructor; eauto using mk_line. Qed.
Lemma m_only v a b : truthy v = true -> free_same a b -> free_same (set_tag_only LMain v a) (set_tag_only LMain v b).
Proof. intros Hv (A1 & A2 & A3 & A4). split; [left; exact Hv|]. split; [exact A2|]. split; [reflexivity|exact A4]. Qed.
Lemma m_set_tag p v d d' : truthy v = true -> M d d' -> M (set_tag sp LMain p v d) (set_tag sp LMain p v d').
Proof.
  intros Hv H. unfold set_tag. apply update_same; [exact H|]. intros l l' Hl. unfold set_tag_line. pose proof (Forall2_nth _ _ _ Hl (snd p)) as X. unfold line in *.
  destruct (nth_error l (snd p)) as [x|], (nth_error l' (snd p)) as [y|]; try contradiction; [|exact Hl].
  assert (U : Forall2 free_same (update_nth (snd p) (set_tag_only LMain v) l) (update_nth (snd p) (set_tag_only LMain v) l')).
  { apply update_same; [exact Hl|]. intros a b. now apply m_only. }
  destruct X as (_ & -> & X1 & X2). destruct (is_space sp y); [exact U|].
  replace (tag_or_preserved LMain x) with (tag_or_preserved LMain y) by (unfold tag_or_preserved, get_tag, get_preserved_tag; congruence).
  destruct (ostreq _ _); [exact U|]. eapply mk_line; [|apply k_clear|apply k_clear]. now apply m_clear.
Qed.
Lemma m_set_main p v d d' : truthy v = true -> M d d' -> M (set_main sp c p v d) (set_main sp c p v d').
Proof.
  intros Hv H. unfold set_main. destruct (cf_preserve_sub c); [|now apply m_set_tag]. unfold set_tag_only_at. apply update_same; [exact H|].
  intros l l' Hl. apply update_same; [exact Hl|]. intros a b. now apply m_only.
Qed.
Lemma full_tag_truthy name b : name <> [] -> truthy (full_tag c name b) = true.
Proof. intros Hn. unfold full_tag, add_tag_prefix. destruct name as [|n name]; [congruence|]. destruct (cf_begin_prefix c); [|reflexivity]. now destruct b. Qed.
Lemma m_fold {A} (f : doc -> A -> doc) l : (forall d d' x, M d d' -> M (f d x) (f d' x)) -> forall d d', M d d' -> M (fold_left f l d) (fold_left f l d').
Proof. intros Hf. induction l as [|x l IH]; intros d d' H; [exact H|]. cbn [fold_left]. apply IH. now apply Hf. Qed.
Lemma m_update_range text r name d d' : name <> [] -> M d d' -> M (update_range sp c sub_only text r name d) (update_range sp c sub_only text r name d').
Proof.
  intros Hn H. unfold update_range. destruct sub_only; [exact H|].
  rewrite (filter_ext (untagged d) (untagged d')) by (intros p; now apply m_untagged).
  apply m_fold; [|exact H]. intros e e' x He. apply m_set_main; [now apply full_tag_truthy|exact He].
Qed.
Lemma m_range_step text a d d' r : an_name a <> [] -> M d d' -> both ST M (range_step text a d r) (range_step text a d' r).
Proof.
  intros Hn H. unfold ModelSimpleMatch.range_step. pose proof (m_update_range text (with_prefix escape_re re_search c text r a) (an_name a) d d' Hn H) as U.
  destruct (cf_use_sub c); [|exact U].
  generalize (fun e => k_sub sp lower search_all c text (with_prefix escape_re re_search c text r a) (an_subs a) (update_range sp c sub_only text (with_prefix escape_re re_search c text r a) (an_name a) d) e) as K1.
  generalize (fun e => k_sub sp lower search_all c text (with_prefix escape_re re_search c text r a) (an_subs a) (update_range sp c sub_only text (with_prefix escape_re re_search c text r a) (an_name a) d') e) as K2.
  generalize (sub_annotations sp lower search_all c text (with_prefix escape_re re_search c text r a) (an_subs a) (update_range sp c sub_only text (with_prefix escape_re re_search c text r a) (an_name a) d)) as x.
  generalize (sub_annotations sp lower search_all c text (with_prefix escape_re re_search c text r a) (an_subs a) (update_range sp c sub_only text (with_prefix escape_re re_search c text r a) (an_name a) d')) as y.
  intros [y|y] [x|x] K2 K1; cbn; try discriminate. eapply mk_doc; [exact U|now apply K1|now apply K2].
Qed.
Definition named (a : tann) : Prop := an_name a <> [].
Definition st_free (s s' : state) : Prop :=
  M (st_doc s) (st_doc s') /\ st_seqs s = st_seqs s' /\ st_block s = st_block s' /\ st_left s = st_left s' /\ Forall named (st_left s).
Lemma m_process_one all a s s' : named a -> st_free s s' -> both ST st_free (process_one all s a) (process_one all s' a).
Proof.
  intros Hn (H & E1 & E2 & E3 & E4). assert (E5 : Forall named (st_left s ++ [a])) by (apply Forall_app; split; [exact E4|now constructor]).
  unfold ModelSimpleMatch.process_one. rewrite <- E1, <- E2, <- E3, <- !(m_pending _ _ _ _ H).
  destruct (matching_ranges _ _ _ _ _ _) as [[|r rs]|]; cbn [bind]; [| |intros _; reflexivity].
  - destruct (ostreq _ _); [cbn; unfold st_free; cbn; auto|]. destruct (matching_ranges _ _ _ _ _ _) as [[|r rs]|]; cbn [bind]; [cbn; unfold st_free; cbn; auto| |intros _; reflexivity].
    destruct (merge_index_ranges _) as [m|]; cbn [bind]; [|intros _; reflexivity].
    apply (both_bind ST M); [apply both_fold; [|exact H]; intros; now apply m_range_step|]. intros e e' He. cbn. unfold st_free; cbn; auto.
  - apply (both_bind ST M); [apply both_fold; [|exact H]; intros; now apply m_range_step|]. intros e e' He. cbn. unfold st_free; cbn; auto.
Qed.
Lemma m_targets targets d d' : Forall named targets -> M d d' -> both ST st_free (process_targets targets d) (process_targets targets d').
Proof.
  intros Ht H. unfold ModelSimpleMatch.process_targets. rewrite <- (m_initial d d' H). generalize (initial_sequences sp d) at 1 3 as all. intros all.
  assert (G : forall s s', st_free s s' -> both ST st_free (foldM (process_one all) s targets) (foldM (process_one all) s' targets)).
  { induction Ht as [|a l Ha Hl IH]; intros s s' Hs; cbn [foldM]; [exact Hs|]. apply (both_bind ST st_free); [now apply m_process_one|]. intros; now apply IH. }
  apply G. unfold st_free. cbn. auto.
Qed.
Lemma m_loop fuel : forall targets d d', Forall named targets -> M d d' -> both ST M (annotate_loop fuel targets d) (annotate_loop fuel targets d').
Proof.
  induction fuel as [|fuel IH]; intros [|a targets] d d' Ht H; cbn [ModelSimpleMatch.annotate_loop]; [exact H|intros _; reflexivity|exact H|].
  apply (both_bind ST st_free); [now apply m_targets|]. intros s s' (Hd & _ & _ & El & En). rewrite <- El.
  destruct (Nat.eqb _ _); [exact Hd|]. now apply IH.
Qed.
Lemma m_extend d d' : M d d' -> M (extend_lines sp c d) (extend_lines sp c d').
Proof.
  intros H. unfold extend_lines. rewrite <- (m_line_words d d' H). apply m_fold; [|exact H]. intros e e' ps He. unfold extend_line.
  rewrite (map_ext (main_tag e) (main_tag e')) by (intros p; now apply m_main_tag).
  apply m_fold; [|exact He]. intros f f' x Hf. destruct (truthy (snd x)) eqn:Ev; [now apply m_set_tag|exact Hf].
Qed.
Lemma m_annotate fuel targets d d' : Forall named targets -> M d d' -> both ST M (annotate fuel targets d) (annotate fuel targets d').
Proof.
  intros Ht H. unfold simple_annotate. apply (both_bind ST M); [now apply m_loop|]. intros e e' He. cbn [both]. destruct (cf_extend c && negb sub_only); [now apply m_extend|exact He].
Qed.

(** What words with a tag are does not matter for the tags of the others, and neither does how words without a tag are written. *)
Theorem C136_tagged fuel targets d d' : Forall named targets -> doc_free_alike sp lower d d' ->
  match annotate fuel targets d, annotate fuel targets d' with
  | Ok r, Ok r' => main_tags r = main_tags r' /\ doc_free_alike sp lower r r'
  | Err e, Err e' => cf_use_sub c = false -> e = e'
  | _, _ => cf_use_sub c = true
  end.
Proof.
  intros Ht H. apply doc_free_same in H. pose proof (m_annotate fuel targets d d' Ht H) as X.
  destruct (annotate fuel targets d) as [r|e], (annotate fuel targets d') as [r'|e']; cbn in X; [|destruct (cf_use_sub c); [reflexivity|now destruct X]|destruct (cf_use_sub c); [reflexivity|now destruct X]|exact X].
  split; [|now apply doc_free_same]. unfold main_tags. clear -X. induction X as [|l l' r r' Hl X IH]; [reflexivity|]. cbn [map]. rewrite IH. f_equal.
  induction Hl as [|x y l l' (_ & _ & Hx & _) Hl IHl]; [reflexivity|]. cbn [map]. now rewrite Hx, IHl.
Qed.
End C136.

(* ---------------------------------------------------------------- *)
(** ** Examples *)
(** other words in the place of those with a tag *)
Definition other_doc : doc :=
  [[PropSimpleMatch.word "The" None; PropSimpleMatch.word "Title" None; PropSimpleMatch.word "x" None]; [PropSimpleMatch.word "The" (Some (u "b-author")); PropSimpleMatch.word "Title" (Some (u "i-author")); PropSimpleMatch.word "Doe" None]].
Example C136_ex : doc_free_alike ascii_space lower_ascii PropSimpleMatch.ex_doc other_doc /\ Forall named PropSimpleMatch.ex_targets /\
  exists r r', PropSimpleMatch.ex_run = Ok r /\
  simple_annotate ascii_space ascii_word lower_ascii (fun s => s) no_regex exact_chunks exact_all PropSimpleMatch.ex_config false 3 PropSimpleMatch.ex_targets other_doc = Ok r' /\
  main_tags r' = [[Some (u "b-title"); Some (u "i-title"); Some (u "i-title")]; [Some (u "b-author"); Some (u "i-author"); Some (u "i-author")]] /\
  main_tags r = main_tags r'.
Proof.
  split; [|split].
  - apply doc_free_same. assert (P : forall x y, (truthy (tag x) = true \/ normalise_str lower_ascii (strip ascii_space (tx x)) = normalise_str lower_ascii (strip ascii_space (tx y)) /\ ws x = ws y) ->
      is_space ascii_space x = is_space ascii_space y -> tag x = tag y -> ptag x = ptag y -> free_same ascii_space lower_ascii x y) by (intros; split; auto).
    repeat (apply Forall2_cons || apply Forall2_nil); apply P; try reflexivity; first [left; reflexivity|right; split; reflexivity].
  - repeat (apply Forall_cons || apply Forall_nil); discriminate.
  - eexists. eexists. split; [vm_compute; reflexivity|]. split; [vm_compute; reflexivity|]. split; vm_compute; reflexivity.
Qed.

Print Assumptions C136_tagged.
