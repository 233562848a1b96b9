(** C133: what the simple matcher compares *)
From Verif Require Import Base ModelTags ModelTokenize ModelTei ModelTeiDoc ModelJoined ModelExtend ModelClusters
  ModelTarget ModelReference ModelFuzzyMatch ModelWordMatch ModelSimpleMatch PropSimpleMatch PropMatch PropAlike.
Open Scope nat_scope.
Open Scope list_scope.

(* ---------------------------------------------------------------- *)
(** ** Specification *)
Section Spec.
Variable sp : N -> bool.
Variable lower : str -> str.
(** the same for the search for main tags: words that read alike, with the same main tags; sub tags may differ *)
Definition tok_main_alike (x y : tok) : Prop :=
  reads_alike lower (strip sp (tx x)) (strip sp (tx y)) /\ (all_spaces sp (tx x) <-> all_spaces sp (tx y)) /\
  (tag x, ptag x, ws x) = (tag y, ptag y, ws y).
Definition doc_main_alike (d d' : doc) : Prop := Forall2 (Forall2 tok_main_alike) d d'.
End Spec.
Definition main_tags (d : doc) : list (list ostr) := map (map tag) d.

(* ---------------------------------------------------------------- *)
Definition both (strict : Prop) {A} (R : A -> A -> Prop) (x y : res A) : Prop :=
  match x, y with Ok a, Ok b => R a b | Err e, Err e' => strict -> e = e' | _, _ => ~ strict end.
Lemma both_bind st {A B} (R : A -> A -> Prop) (S : B -> B -> Prop) x y f g : both st R x y -> (forall a b, R a b -> both st S (f a) (g b)) ->
  both st S (bind x f) (bind y g).
Proof.
  destruct x as [a|e], y as [b|e']; cbn; intros H Hf; auto; [destruct (f a)|destruct (g b)]; try exact H; intros Hs; contradiction.
Qed.
Lemma both_fold st {A B} (R : B -> B -> Prop) (f g : B -> A -> res B) l : (forall b b' x, R b b' -> both st R (f b x) (g b' x)) ->
  forall b b', R b b' -> both st R (foldM f b l) (foldM g b' l).
Proof.
  intros Hf. induction l as [|x l IH]; intros b b' Hb; cbn [foldM]; [exact Hb|].
  apply (both_bind st R); [now apply Hf|]. intros c c' Hc. now apply IH.
Qed.

Section C133.
Variable sp : N -> bool.
Variable wd : N -> bool.
Variable lower : str -> str.
Variable escape_re : str -> str.
Variable re_search : str -> str -> option Z.
Variable search_chunks : str -> str -> nat -> res (option (list irange)).
Variable search_all : str -> str -> list (res irange).
Variable c : config.
Variable sub_only : bool.
Definition main_same (x y : tok) : Prop :=
  normalise_str lower (strip sp (tx x)) = normalise_str lower (strip sp (tx y)) /\ is_space sp x = is_space sp y /\
  tag x = tag y /\ ptag x = ptag y /\ ws x = ws y.
Notation ST := (cf_use_sub c = false).
Notation M := (Forall2 (Forall2 main_same)).
Definition kept (x y : tok) : Prop := tx x = tx y /\ tag x = tag y /\ ptag x = ptag y /\ ws x = ws y.
Notation K := (Forall2 (Forall2 kept)).
Notation annotate := (simple_annotate sp wd lower escape_re re_search search_chunks search_all c sub_only).
Notation range_step := (range_step sp lower escape_re re_search search_all c sub_only).
Notation process_one := (process_one sp wd lower escape_re re_search search_chunks search_all c sub_only).
Notation process_targets := (process_targets sp wd lower escape_re re_search search_chunks search_all c sub_only).
Notation annotate_loop := (annotate_loop sp wd lower escape_re re_search search_chunks search_all c sub_only).

Lemma main_alike_same x y : tok_main_alike sp lower x y <-> main_same x y.
Proof.
  unfold tok_main_alike, main_same. rewrite alike_normal, <- !space_spec. split.
  - intros (H1 & H2 & E). injection E as -> -> ->. split; [exact H1|]. split; [|auto].
    destruct (is_space sp x), (is_space sp y); try reflexivity; [symmetry|]; apply H2; reflexivity.
  - intros (H1 & -> & -> & -> & ->). split; [exact H1|]. split; reflexivity.
Qed.
Lemma doc_main_same d d' : doc_main_alike sp lower d d' <-> M d d'.
Proof.
  unfold doc_main_alike. split; intros H; (eapply Forall2_weaken; [|exact H]); cbn beta; intros l l' Hl; (eapply Forall2_weaken; [|exact Hl]); apply main_alike_same.
Qed.
Lemma m_at_pos d d' p : M d d' -> match at_pos d p, at_pos d' p with Some x, Some y => main_same x y | None, None => True | _, _ => False end.
Proof.
  intros H. unfold at_pos. pose proof (Forall2_nth _ _ _ H (fst p)) as X. unfold doc, line in *.
  destruct (nth_error d (fst p)) as [l|], (nth_error d' (fst p)) as [l'|]; try exact I; try contradiction. exact (Forall2_nth _ _ _ X (snd p)).
Qed.
Lemma m_main_tag d d' p : M d d' -> main_tag d p = main_tag d' p.
Proof. intros H. pose proof (m_at_pos d d' p H) as X. unfold main_tag. destruct (at_pos d p), (at_pos d' p); try contradiction; [apply X|reflexivity]. Qed.
Lemma m_untagged d d' p : M d d' -> untagged d p = untagged d' p.
Proof. intros H. unfold untagged. now rewrite (m_main_tag d d' p H). Qed.
Lemma m_wrap d d' ps : M d d' -> wrap sp (normalise lower) d ps = wrap sp (normalise lower) d' ps.
Proof.
  intros H. induction ps as [|p ps IH]; [reflexivity|]. cbn [wrap flat_map]. unfold wrap in IH. rewrite IH. f_equal.
  pose proof (m_at_pos d d' p H) as X. destruct (at_pos d p), (at_pos d' p); try contradiction; [|reflexivity].
  destruct X as (X1 & _ & _ & _ & ->). unfold normalise. now rewrite X1.
Qed.
Lemma m_pending d d' limit qs : M d d' -> pending_text sp lower limit d qs = pending_text sp lower limit d' qs.
Proof.
  intros H. unfold pending_text. assert (E : pending_sequences (fun p => negb (untagged d p)) limit qs = pending_sequences (fun p => negb (untagged d' p)) limit qs).
  { unfold pending_sequences. replace (flat_map (untagged_sub_sequences (fun p => negb (untagged d p))) qs) with (flat_map (untagged_sub_sequences (fun p => negb (untagged d' p))) qs); [reflexivity|].
    induction qs as [|q qs IH]; [reflexivity|]. cbn [flat_map]. rewrite IH. f_equal. apply untagged_ext. intros p. now rewrite (m_untagged d d' p H). }
  rewrite E. apply map_ext. intros ps. now apply m_wrap.
Qed.
Lemma m_line_words d d' : M d d' -> forall i, line_words sp i d = line_words sp i d'.
Proof.
  induction 1 as [|l l' d d' Hl H IH]; intros i; [reflexivity|]. cbn [line_words]. rewrite IH. f_equal.
  generalize 0. induction Hl as [|x y l l' (_ & Hx & _) Hl IHl]; intros j; [reflexivity|]. cbn [word_indices]. now rewrite Hx, IHl.
Qed.
Lemma m_initial d d' : M d d' -> initial_sequences sp d = initial_sequences sp d'.
Proof.
  intros H. unfold initial_sequences. rewrite (m_line_words d d' H). f_equal. apply map_ext. intros ps. apply filter_ext. intros p. now apply m_untagged.
Qed.
Lemma m_clear lv j l l' : Forall2 main_same l l' -> lv = LMain -> Forall2 main_same (clear_same_preserved lv j l) (clear_same_preserved lv j l').
Proof.
  intros H ->. unfold clear_same_preserved. pose proof (Forall2_nth _ _ _ H j) as X. unfold line in *.
  destruct (nth_error l j) as [x|], (nth_error l' j) as [y|]; try contradiction; [|exact H].
  cbn [get_preserved_tag]. replace (ptag x) with (ptag y) by (symmetry; apply X). destruct (truthy _); [|exact H]. clear X.
  induction H as [|a b l l' Ha H IH]; [constructor|]. cbn [map]. constructor; [|exact IH].
  replace (ptag a) with (ptag b) by (symmetry; apply Ha). destruct (ostreq _ _); [|exact Ha]. destruct Ha as (A1 & A2 & A3 & A4 & A5). repeat split; assumption.
Qed.
Lemma k_clear j l : Forall2 kept l (clear_same_preserved LSub j l).
Proof.
  assert (R : forall l, Forall2 kept l l) by (intros m; induction m; constructor; [repeat split|assumption]).
  unfold clear_same_preserved. destruct (nth_error l j); [|apply R]. destruct (truthy _); [|apply R].
  induction l as [|x l IH]; [constructor|]. cbn [map]. constructor; [|exact IH]. destruct (ostreq _ _); repeat split.
Qed.
Lemma k_trans {A} (R : A -> A -> Prop) : (forall x y z, R x y -> R y z -> R x z) -> forall l m n, Forall2 R l m -> Forall2 R m n -> Forall2 R l n.
Proof. intros T l m n H. revert n. induction H as [|x y l m Hx H IH]; intros n H'; inversion H'; subst; constructor; eauto. Qed.
Lemma kept_trans x y z : kept x y -> kept y z -> kept x z.
Proof. intros (A & B & C & D) (A' & B' & C' & D'). repeat split; congruence. Qed.
Lemma kept_refl l : Forall2 kept l l.
Proof. induction l; constructor; [repeat split|assumption]. Qed.
Lemma k_refl d : K d d.
Proof. induction d; constructor; [apply kept_refl|assumption]. Qed.
Lemma mk x y x' y' : main_same x y -> kept x x' -> kept y y' -> main_same x' y'.
Proof. intros (A & B & C & D & E) (A1 & A2 & A3 & A4) (B1 & B2 & B3 & B4). unfold main_same, is_space in *. rewrite <- A1, <- B1, <- A2, <- B2, <- A3, <- B3, <- A4, <- B4. auto. Qed.
Lemma mk_line l l' m m' : Forall2 main_same l l' -> Forall2 kept l m -> Forall2 kept l' m' -> Forall2 main_same m m'.
Proof. intros H. revert m m'. induction H as [|x y l l' Hx H IH]; intros m m' H1 H2; inversion H1; inversion H2; subst; constructor; eauto using mk. Qed.
Lemma mk_doc l l' m m' : M l l' -> K l m -> K l' m' -> M m m'.
Proof. intros H. revert m m'. induction H as [|x y l l' Hx H IH]; intros m m' H1 H2; inversion H1; inversion H2; subst; constructor; eauto using mk_line. Qed.
Lemma m_set_tag p v d d' : M d d' -> M (set_tag sp LMain p v d) (set_tag sp LMain p v d').
Proof.
  intros H. unfold set_tag. apply update_same; [exact H|]. intros l l' Hl. unfold set_tag_line. pose proof (Forall2_nth _ _ _ Hl (snd p)) as X. unfold line in *.
  destruct (nth_error l (snd p)) as [x|], (nth_error l' (snd p)) as [y|]; try contradiction; [|exact Hl].
  assert (U : Forall2 main_same (update_nth (snd p) (set_tag_only LMain v) l) (update_nth (snd p) (set_tag_only LMain v) l')).
  { apply update_same; [exact Hl|]. intros a b (A1 & A2 & A3 & A4 & A5). repeat split; cbn; assumption || reflexivity. }
  destruct X as (_ & -> & X1 & X2 & _). destruct (is_space sp y); [exact U|].
  replace (tag_or_preserved LMain x) with (tag_or_preserved LMain y) by (unfold tag_or_preserved, get_tag, get_preserved_tag; congruence).
  destruct (ostreq _ _); [exact U|]. eapply mk_line; [|apply k_clear|apply k_clear]. now apply m_clear.
Qed.
Lemma m_set_main p v d d' : M d d' -> M (set_main sp c p v d) (set_main sp c p v d').
Proof.
  intros H. unfold set_main. destruct (cf_preserve_sub c); [|now apply m_set_tag]. unfold set_tag_only_at. apply update_same; [exact H|].
  intros l l' Hl. apply update_same; [exact Hl|]. intros a b (A1 & A2 & A3 & A4 & A5). repeat split; cbn; assumption || reflexivity.
Qed.
Lemma k_update {A} (R : A -> A -> Prop) f n l : (forall x, R x x) -> (forall x, R x (f x)) -> Forall2 R l (update_nth n f l).
Proof. intros Hr Hf. revert n. induction l as [|x l IH]; intros [|n]; cbn [update_nth]; constructor; auto. clear -Hr. induction l; constructor; auto. Qed.
Lemma k_set_sub p v d : K d (set_tag sp LSub p v d).
Proof.
  unfold set_tag. apply k_update; [intros; apply kept_refl|]. intros l. unfold set_tag_line. unfold line in *. destruct (nth_error l (snd p)) as [x|]; [|apply kept_refl].
  assert (U : Forall2 kept l (update_nth (snd p) (set_tag_only LSub v) l)) by (apply k_update; intros; repeat split).
  destruct (is_space sp x); [exact U|]. destruct (ostreq _ _); [exact U|]. eapply (k_trans kept kept_trans); [exact U|apply k_clear].
Qed.
Lemma m_fold {A} (f : doc -> A -> doc) l : (forall d d' x, M d d' -> M (f d x) (f d' x)) -> forall d d', M d d' -> M (fold_left f l d) (fold_left f l d').
Proof. intros Hf. induction l as [|x l IH]; intros d d' H; [exact H|]. cbn [fold_left]. apply IH. now apply Hf. Qed.
Lemma m_update_range text r name d d' : M d d' -> M (update_range sp c sub_only text r name d) (update_range sp c sub_only text r name d').
Proof.
  intros H. unfold update_range. destruct sub_only; [exact H|].
  rewrite (filter_ext (untagged d) (untagged d')) by (intros p; now apply m_untagged).
  apply m_fold; [|exact H]. intros e e' x He. now apply m_set_main.
Qed.
Lemma k_first_free st name rs : forall d d2, first_free sp c st name rs d = Ok d2 -> K d d2.
Proof.
  induction rs as [|[r|e] rs IH]; intros d d2; cbn [first_free]; [intros [= <-]; apply k_refl| |discriminate].
  destruct (existsb _ _); [apply IH|]. intros [= <-]. generalize (firsts (all_tokens_between [10%N] [] st r)) as l.
  intros l. revert d. induction l as [|x l IHl]; intros d; cbn [fold_left]; [apply k_refl|].
  eapply (k_trans (Forall2 kept)); [apply (k_trans kept kept_trans)|apply k_set_sub|apply IHl].
Qed.
Lemma k_sub text r subs d d2 : sub_annotations sp lower search_all c text r subs d = Ok d2 -> K d d2.
Proof.
  unfold sub_annotations. destruct subs as [|nv subs]; [intros [= <-]; apply k_refl|].
  generalize ([wrap sp (fun s => s) d (all_tokens_between [10%N] [] text r)]) as st. intros st. generalize (nv :: subs) as l. intros l. revert d.
  induction l as [|x l IH]; intros d; cbn [foldM]; [intros [= <-]; apply k_refl|].
  unfold sub_step at 1. destruct (snd x); [|discriminate]. destruct (first_free _ _ _ _ _ _) as [e|] eqn:E; [|discriminate]. cbn [bind]. intros H.
  eapply (k_trans (Forall2 kept)); [apply (k_trans kept kept_trans)|exact (k_first_free _ _ _ _ _ E)|exact (IH _ H)].
Qed.
Lemma m_range_step text a d d' r : M d d' -> both ST M (range_step text a d r) (range_step text a d' r).
Proof.
  intros H. unfold ModelSimpleMatch.range_step. pose proof (m_update_range text (with_prefix escape_re re_search c text r a) (an_name a) d d' H) as U.
  destruct (cf_use_sub c); [|exact U].
  generalize (fun e => k_sub text (with_prefix escape_re re_search c text r a) (an_subs a) (update_range sp c sub_only text (with_prefix escape_re re_search c text r a) (an_name a) d) e) as K1.
  generalize (fun e => k_sub text (with_prefix escape_re re_search c text r a) (an_subs a) (update_range sp c sub_only text (with_prefix escape_re re_search c text r a) (an_name a) d') e) as K2.
  generalize (sub_annotations sp lower search_all c text (with_prefix escape_re re_search c text r a) (an_subs a) (update_range sp c sub_only text (with_prefix escape_re re_search c text r a) (an_name a) d)) as x.
  generalize (sub_annotations sp lower search_all c text (with_prefix escape_re re_search c text r a) (an_subs a) (update_range sp c sub_only text (with_prefix escape_re re_search c text r a) (an_name a) d')) as y.
  intros [y|y] [x|x] K2 K1; cbn; try discriminate. eapply mk_doc; [exact U|now apply K1|now apply K2].
Qed.
Definition st_same (s s' : state) : Prop := M (st_doc s) (st_doc s') /\ st_seqs s = st_seqs s' /\ st_block s = st_block s' /\ st_left s = st_left s'.
Lemma m_process_one all a s s' : st_same s s' -> both ST st_same (process_one all s a) (process_one all s' a).
Proof.
  intros (H & E1 & E2 & E3). unfold ModelSimpleMatch.process_one. rewrite <- E1, <- E2, <- E3, <- !(m_pending _ _ _ _ H).
  destruct (matching_ranges _ _ _ _ _ _) as [[|r rs]|]; cbn [bind]; [| |intros _; reflexivity].
  - destruct (ostreq _ _); [cbn; split; auto|]. destruct (matching_ranges _ _ _ _ _ _) as [[|r rs]|]; cbn [bind]; [cbn; split; auto| |intros _; reflexivity].
    destruct (merge_index_ranges _) as [m|]; cbn [bind]; [|intros _; reflexivity].
    apply (both_bind ST M); [apply both_fold; [|exact H]; intros; now apply m_range_step|]. intros e e' He. cbn. split; auto.
  - apply (both_bind ST M); [apply both_fold; [|exact H]; intros; now apply m_range_step|]. intros e e' He. cbn. split; auto.
Qed.
Lemma m_targets targets d d' : M d d' -> both ST st_same (process_targets targets d) (process_targets targets d').
Proof.
  intros H. unfold ModelSimpleMatch.process_targets. rewrite <- (m_initial d d' H). apply both_fold; [intros; now apply m_process_one|]. split; auto.
Qed.
Lemma m_loop fuel : forall targets d d', M d d' -> both ST M (annotate_loop fuel targets d) (annotate_loop fuel targets d').
Proof.
  induction fuel as [|fuel IH]; intros [|a targets] d d' H; cbn [ModelSimpleMatch.annotate_loop]; [exact H|intros _; reflexivity|exact H|].
  apply (both_bind ST st_same); [now apply m_targets|]. intros s s' (Hd & _ & _ & El). rewrite <- El.
  destruct (Nat.eqb _ _); [exact Hd|]. now apply IH.
Qed.
Lemma m_extend d d' : M d d' -> M (extend_lines sp c d) (extend_lines sp c d').
Proof.
  intros H. unfold extend_lines. rewrite <- (m_line_words d d' H). apply m_fold; [|exact H]. intros e e' ps He. unfold extend_line.
  rewrite (map_ext (main_tag e) (main_tag e')) by (intros p; now apply m_main_tag).
  apply m_fold; [|exact He]. intros f f' x Hf. destruct (truthy _); [now apply m_set_tag|exact Hf].
Qed.
Lemma m_annotate fuel targets d d' : M d d' -> both ST M (annotate fuel targets d) (annotate fuel targets d').
Proof.
  intros H. unfold simple_annotate. apply (both_bind ST M); [now apply m_loop|]. intros e e' He. cbn [both]. destruct (cf_extend c && negb sub_only); [now apply m_extend|exact He].
Qed.

(** Two documents whose words read alike get the same main tags, whatever the sub tags do. *)
Theorem C133_main fuel targets d d' r r' :
  doc_main_alike sp lower d d' -> annotate fuel targets d = Ok r -> annotate fuel targets d' = Ok r' ->
  doc_main_alike sp lower r r' /\ main_tags r = main_tags r'.
Proof.
  intros H E E'. apply doc_main_same in H. pose proof (m_annotate fuel targets d d' H) as X. rewrite E, E' in X. cbn in X.
  split; [now apply doc_main_same|]. unfold main_tags. clear -X. induction X as [|l l' r r' Hl X IH]; [reflexivity|]. cbn [map]. rewrite IH. f_equal.
  induction Hl as [|x y l l' (_ & _ & Hx & _) Hl IHl]; [reflexivity|]. cbn [map]. now rewrite Hx, IHl.
Qed.
(** Without sub annotations also the failures are the same. *)
Theorem C133_outcome fuel targets d d' : cf_use_sub c = false -> doc_main_alike sp lower d d' ->
  match annotate fuel targets d, annotate fuel targets d' with
  | Ok r, Ok r' => main_tags r = main_tags r'
  | Err e, Err e' => e = e'
  | _, _ => False
  end.
Proof.
  intros Hs H. pose proof (fun r r' => C133_main fuel targets d d' r r' H) as T. apply doc_main_same in H. pose proof (m_annotate fuel targets d d' H) as X.
  destruct (annotate fuel targets d), (annotate fuel targets d'); cbn in X; [now apply T|now apply X|now apply X|now apply X].
Qed.
End C133.

(* ---------------------------------------------------------------- *)
(** ** Examples *)
(** the same words, written in other letters and with another dash (8211: en dash) *)
Definition wordn (s : str) : tok := mkTok s None None None None (Some (u " ")).
Definition dash_doc (dash : N) : doc := [[wordn (u "The"); wordn (u "in" ++ dash :: u "vivo"); wordn (u "study")]].
Definition dash_targets : list tann := [mkTann (u "title") (VOne (u "in-vivo study")) [(u "word", VOne (u "in-vivo"))]].
Definition dash_run (dash : N) := simple_annotate ascii_space ascii_word lower_ascii (fun s => s) no_regex exact_chunks exact_all
  ex_config_no_extend false 3 dash_targets (dash_doc dash).
Lemma dash_alike : doc_main_alike ascii_space lower_ascii (dash_doc 45) (dash_doc 8211).
Proof.
  apply doc_main_same. repeat (apply Forall2_cons || apply Forall2_nil); repeat split; vm_compute; reflexivity.
Qed.
Example C133_main_ex : exists r r', dash_run 45 = Ok r /\ dash_run 8211 = Ok r' /\ dash_doc 45 <> dash_doc 8211 /\
  main_tags r = [[None; Some (u "b-title"); Some (u "i-title")]] /\ main_tags r = main_tags r'.
Proof.
  eexists. eexists. split; [vm_compute; reflexivity|]. split; [vm_compute; reflexivity|]. split; [discriminate|]. split; vm_compute; reflexivity.
Qed.
Definition no_sub_config : config := mkConfig 200 2 5 true true false false [].
Example C133_outcome_ex : cf_use_sub no_sub_config = false /\ doc_main_alike ascii_space lower_ascii (dash_doc 45) (dash_doc 8211) /\
  exists r, simple_annotate ascii_space ascii_word lower_ascii (fun s => s) no_regex exact_chunks exact_all no_sub_config false 3 dash_targets (dash_doc 8211) = Ok r /\
  main_tags r = [[Some (u "b-title"); Some (u "i-title"); Some (u "i-title")]].
Proof. split; [reflexivity|]. split; [apply dash_alike|]. eexists. split; vm_compute; reflexivity. Qed.
(** For sub tags the claim is false: their values are searched in the text as it is, in lower case only. *)
Theorem C133_sub_refuted : exists d d' r r',
  doc_main_alike ascii_space lower_ascii d d' /\ map (map sub) d = map (map sub) d' /\ map (map psub) d = map (map psub) d' /\
  simple_annotate ascii_space ascii_word lower_ascii (fun s => s) no_regex exact_chunks exact_all ex_config_no_extend false 3 dash_targets d = Ok r /\
  simple_annotate ascii_space ascii_word lower_ascii (fun s => s) no_regex exact_chunks exact_all ex_config_no_extend false 3 dash_targets d' = Ok r' /\
  map (map sub) r = [[None; Some (u "b-word"); None]] /\ map (map sub) r' = [[None; None; None]].
Proof.
  exists (dash_doc 45), (dash_doc 8211). eexists. eexists. split; [apply dash_alike|]. split; [reflexivity|]. split; [reflexivity|].
  split; [vm_compute; reflexivity|]. split; [vm_compute; reflexivity|]. split; vm_compute; reflexivity.
Qed.

Print Assumptions C133_main.
Print Assumptions C133_outcome.
Print Assumptions C133_sub_refuted.
