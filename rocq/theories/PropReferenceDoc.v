(** C65: the reference annotator on a document *)
From Verif Require Import Base ModelTags ProofTags ModelTei ModelTeiDoc SpecTeiWrite SpecTeiDoc ProofTeiDoc PropTeiDoc
  ModelJoined PropJoined ModelExtend PropExtend ModelTarget ModelReference PropReference.
Open Scope nat_scope.

(* ---------------------------------------------------------------- *)
(** ** Specification *)
(** sub tag, text and white space of the tokens at some positions *)
Definition view (d : doc) (p : nat * nat) : rtok :=
  match tok_at d p with Some t => (sub t, tx t, ws t) | None => (None, [], None) end.
Definition views (d : doc) (ps : list (nat * nat)) : list rtok := map (view d) ps.
Definition main_at (d : doc) (p : nat * nat) : ostr := match tok_at d p with Some t => tag t | None => None end.

Section Spec.
Variable search : str -> str -> option Z.
Variable regexes : list (str * str).
Variable sp : N -> bool.
Variable c : ref_config.
(** what one entity becomes, from its own tokens alone: four times the sub tags are
    mapped and transformed, and tags that result replace those before *)
Definition prepared (x : rtok) : rtok := (map_tag (rc_map c) (rt_tag x), strip sp (rt_text x), rt_ws x).
Definition renew (ts : list ostr) (l : list rtok) : list rtok :=
  map (fun p => (if truthy (fst p) then fst p else rt_tag (snd p), rt_text (snd p), rt_ws (snd p))) (combine ts l).
Definition entity_step (f : list rtok -> res (list ostr)) (l : list rtok) : res (list rtok) :=
  do ts <- f (map prepared l) ;; Ok (renew ts l).
Definition entity_result (l : list rtok) : res (list rtok) :=
  do a <- entity_step (fun l => Ok (etal_mapped (rc_etal c) (rc_etal_merge c) (map rt_tag l))) l ;;
  do b <- entity_step (suffix_extended (rc_suffix c)) a ;;
  do e <- entity_step (prefix_extended search regexes (rc_prefix c)) b ;;
  entity_step (fun l => Ok (extended_line_tags [] (map (fun k => (k, true)) (rc_merge c)) false false (map rt_tag l))) e.
(** positions of the words, in order *)
Definition is_word_at (d : doc) (p : nat * nat) : Prop := exists t, tok_at d p = Some t /\ is_word sp t = true.
Definition references (d : doc) : list (ostr * list (nat * nat)) := tag_entities (main_at d) (word_positions sp 0 d).
End Spec.

(* ---------------------------------------------------------------- *)
(** ** Proofs *)
Section Proof.
Variable search : str -> str -> option Z.
Variable regexes : list (str * str).
Variable sp : N -> bool.

Lemma set_sub_at p v d q t : tok_at d q = Some t ->
  exists t', tok_at (set_tag sp LSub p v d) q = Some t' /\ tx t' = tx t /\ ws t' = ws t /\ tag t' = tag t /\
    sub t' = if Nat.eqb (fst p) (fst q) && Nat.eqb (snd p) (snd q) then v else sub t.
Proof.
  intros Ht. destruct (C10_last_set sp [(LSub, p, v)] d q t LSub Ht) as (t' & E & H).
  destruct (C10_last_set sp [(LSub, p, v)] d q t LMain Ht) as (t'' & E' & H').
  change (run sp [(LSub, p, v)] d) with (set_tag sp LSub p v d) in *. rewrite E in E'. injection E' as <-.
  exists t'. split; [exact E|].
  pose proof (set_tag_layout sp LSub p v d) as L.
  assert (S : same_text t t').
  { clear -L Ht E. unfold tok_at in *. destruct (nth_error d (fst q)) as [l|] eqn:E1; [|discriminate].
    destruct (nth_error (set_tag sp LSub p v d) (fst q)) as [l'|] eqn:E2; [|discriminate].
    assert (G : forall (A : Type) (R : A -> A -> Prop) (a b : list A) i x y, Forall2 R a b -> nth_error a i = Some x -> nth_error b i = Some y -> R x y).
    { clear. intros A R a b i x y H. revert i. induction H as [|a0 b0 a b H0 H IH]; intros [|i] Hx Hy; try discriminate.
      - cbn in *. congruence. - exact (IH i Hx Hy). }
    eapply G; [|exact Ht|exact E]. eapply G; [exact L|exact E1|exact E2]. }
  destruct S as [S1 S2]. repeat split; auto.
  cbn [given] in H. rewrite H. unfold last_set. cbn [rev app find]. unfold op_at. cbn [fst snd andb].
  destruct (Nat.eqb (fst p) (fst q) && Nat.eqb (snd p) (snd q)); reflexivity.
Qed.
Lemma set_sub_none p v d q : tok_at d q = None -> tok_at (set_tag sp LSub p v d) q = None.
Proof.
  intros H. destruct (tok_at (set_tag sp LSub p v d) q) as [t'|] eqn:E; [|reflexivity]. exfalso.
  unfold tok_at, set_tag in *. cbn [fst snd] in *.
  destruct (Nat.eq_dec (fst q) (fst p)) as [e|e].
  - rewrite e in *. rewrite update_nth_same in E. destruct (nth_error d (fst p)) as [l|]; [|discriminate]. cbn in E.
    assert (snd q < length (set_tag_line sp LSub (snd p) v l)) by (apply nth_error_Some; congruence).
    rewrite set_tag_line_length in H0. apply nth_error_Some in H0. contradiction.
  - rewrite update_nth_other in E by congruence. congruence.
Qed.
Lemma pos_eqb (p q : nat * nat) : Nat.eqb (fst p) (fst q) && Nat.eqb (snd p) (snd q) = true <-> p = q.
Proof.
  destruct p, q. cbn. rewrite andb_true_iff, !Nat.eqb_eq. split; [intros [-> ->]; reflexivity|intros [= -> ->]; auto].
Qed.
Definition valid (d : doc) (p : nat * nat) : Prop := tok_at d p <> None.
(** effect of setting sub tags *)
Lemma set_sub_tags_view ps : forall ts d, NoDup ps -> length ts = length ps -> Forall (valid d) ps ->
  views (set_sub_tags sp ps ts d) ps = renew ts (views d ps) /\
  (forall q, ~ In q ps -> view (set_sub_tags sp ps ts d) q = view d q) /\
  (forall q, main_at (set_sub_tags sp ps ts d) q = main_at d q) /\
  (forall q, valid (set_sub_tags sp ps ts d) q <-> valid d q).
Proof.
  induction ps as [|p ps IH]; intros [|t ts] d Hn Hl Hv; try discriminate; [repeat split; auto|].
  injection Hl as Hl. inversion Hn as [|? ? Hp Hn']; subst. inversion Hv as [|? ? Vp Hv']; subst.
  unfold set_sub_tags. cbn [combine fold_left fst snd].
  set (d1 := if truthy t then set_tag sp LSub p t d else d).
  change (fold_left _ (combine ps ts) d1) with (set_sub_tags sp ps ts d1).
  assert (K : forall q, main_at d1 q = main_at d q /\ (valid d1 q <-> valid d q) /\
    view d1 q = if Nat.eqb (fst p) (fst q) && Nat.eqb (snd p) (snd q) && truthy t
                then match tok_at d q with Some _ => (t, rt_text (view d q), rt_ws (view d q)) | None => view d q end else view d q).
  { intros q. unfold d1. destruct (truthy t); [|rewrite andb_false_r; repeat split; auto]. rewrite andb_true_r.
    destruct (tok_at d q) as [x|] eqn:Ex.
    - destruct (set_sub_at p t d q x Ex) as (x' & E & E1 & E2 & E3 & E4). unfold main_at, valid, view. rewrite E, Ex, E1, E2, E3, E4.
      split; [reflexivity|]. split; [split; congruence|]. destruct (_ && _); reflexivity.
    - pose proof (set_sub_none p t d q Ex) as E. unfold main_at, valid, view. rewrite E, Ex.
      repeat split; auto. destruct (_ && _); reflexivity. }
  assert (V1 : Forall (valid d1) ps) by (eapply Forall_impl; [|exact Hv']; intros q; apply K).
  destruct (IH ts d1 Hn' Hl V1) as (I1 & I2 & I3 & I4).
  assert (Kother : forall q, q <> p -> view d1 q = view d q).
  { intros q Hq. destruct (K q) as (_ & _ & ->). destruct (Nat.eqb (fst p) (fst q) && Nat.eqb (snd p) (snd q)) eqn:E; [|reflexivity].
    apply pos_eqb in E. congruence. }
  split; [|split; [|split]].
  - cbn [views map]. unfold renew. cbn [combine map fst snd]. f_equal.
    + rewrite I2 by exact Hp. destruct (K p) as (_ & _ & ->).
      replace (Nat.eqb (fst p) (fst p) && Nat.eqb (snd p) (snd p)) with true by (symmetry; now apply pos_eqb). cbn [andb].
      unfold valid in Vp. destruct (truthy t); [destruct (tok_at d p); [reflexivity|congruence]|].
      destruct (view d p) as [[? ?] ?]; reflexivity.
    + change (map (view (set_sub_tags sp ps ts d1)) ps) with (views (set_sub_tags sp ps ts d1) ps). rewrite I1. unfold renew. f_equal. f_equal.
      unfold views. apply map_ext_in. intros q Hq. apply Kother. intros ->. contradiction.
  - intros q Hq. rewrite I2 by (intros H; apply Hq; now right). apply Kother. intros ->. apply Hq. now left.
  - intros q. rewrite I3. apply K.
  - intros q. rewrite I4. apply K.
Qed.

Lemma read_views c d ps : Forall (valid d) ps -> map (to_rtok sp c) (read_tokens d ps) = map (prepared sp c) (views d ps).
Proof.
  induction ps as [|p ps IH]; intros Hv; [reflexivity|]. inversion Hv as [|? ? Vp Hv']; subst.
  unfold read_tokens in *. cbn [flat_map views map]. rewrite map_app, IH by exact Hv'.
  change (map (view d) ps) with (views d ps). change (prepared sp c (view d p) :: map (prepared sp c) (views d ps))
    with ([prepared sp c (view d p)] ++ map (prepared sp c) (views d ps)). f_equal.
  unfold valid in Vp. unfold view, tok_at in *. destruct (nth_error d (fst p)) as [l|]; [|congruence].
  destruct (nth_error l (snd p)) as [t|]; [|congruence]. reflexivity.
Qed.

(** lengths *)
Lemma etal_length etal en l : length (etal_mapped etal en l) = length l.
Proof.
  unfold etal_mapped.
  assert (G : forall gs acc, Forall (fun g : list ostr => g <> []) gs -> length (etal_go etal en acc gs) = length (concat gs)).
  { induction gs as [|g gs IH]; intros acc H; [reflexivity|]. inversion H; subst. cbn [etal_go concat]. rewrite app_length.
    destruct (_ || _); [rewrite app_length, IH by assumption; reflexivity|]. cbn [length]. rewrite app_length, repeat_length, IH by assumption.
    destruct g; [congruence|]. cbn [length]. lia. }
  rewrite G, group_by_concat; [reflexivity|]. clear.
  induction l as [|x l IH]; [constructor|]. cbn [group_by]. destruct (group_by same_value l) as [|[|y g] gs].
  - repeat constructor. discriminate.
  - inversion IH; congruence.
  - destruct (same_value x y); inversion IH; subst; repeat constructor; auto; discriminate.
Qed.
Lemma prefix_length en l r : prefix_extended search regexes en l = Ok r -> length r = length l.
Proof.
  unfold prefix_extended. set (e := match en with Some _ => _ | None => _ end). intros H. rewrite <- (rgroups_concat l).
  revert H. generalize false as ch. generalize (rgroups l) as gs. intros gs. revert r.
  induction gs as [|g gs IH]; intros r ch H; [now injection H as <-|]. cbn [prefix_go] in H.
  destruct (prefix_group _ _ _ _ _) as [x|] eqn:E; [|discriminate]. cbn [bind] in H.
  destruct (prefix_go _ _ _ _ gs) as [r'|] eqn:E'; [|discriminate]. cbn [bind] in H. injection H as <-.
  apply prefix_group_length in E. apply IH in E'. cbn [concat]. rewrite !app_length, E, E'.
  destruct ch; [now rewrite rinside_length|reflexivity].
Qed.
Definition keeps_length (f : list rtok -> res (list ostr)) : Prop := forall l r, f l = Ok r -> length r = length l.
Lemma steps_length c : Forall keeps_length (ref_steps search regexes c).
Proof.
  unfold ref_steps. repeat apply Forall_cons; try apply Forall_nil; intros l r H.
  - injection H as <-. now rewrite etal_length, map_length.
  - destruct (C24_suffix_total (rc_suffix c) l) as (r' & E & L). congruence.
  - now apply prefix_length in H.
  - injection H as <-. now rewrite C16_length, map_length.
Qed.

(** one step and all steps for one entity *)
Lemma ref_step_spec c f ps d : keeps_length f -> NoDup ps -> Forall (valid d) ps ->
  match ref_step sp c f ps d with
  | Ok d' => entity_step sp c f (views d ps) = Ok (views d' ps) /\ (forall q, ~ In q ps -> view d' q = view d q) /\
      (forall q, main_at d' q = main_at d q) /\ (forall q, valid d' q <-> valid d q)
  | Err e => entity_step sp c f (views d ps) = Err e
  end.
Proof.
  intros Hf Hn Hv. unfold ref_step, entity_step. rewrite read_views by exact Hv. specialize (Hf (map (prepared sp c) (views d ps))).
  destruct (f _) as [ts|e]; [|reflexivity]. cbn [bind]. specialize (Hf ts eq_refl). unfold views in Hf. rewrite !map_length in Hf.
  destruct (set_sub_tags_view ps ts d Hn Hf Hv) as (H1 & H2 & H3 & H4). rewrite H1. auto.
Qed.
Lemma ref_steps_spec c fs : forall ps d, Forall keeps_length fs -> NoDup ps -> Forall (valid d) ps ->
  match foldM (fun d f => ref_step sp c f ps d) d fs with
  | Ok d' => foldM (fun l f => entity_step sp c f l) (views d ps) fs = Ok (views d' ps) /\ (forall q, ~ In q ps -> view d' q = view d q) /\
      (forall q, main_at d' q = main_at d q) /\ (forall q, valid d' q <-> valid d q)
  | Err e => foldM (fun l f => entity_step sp c f l) (views d ps) fs = Err e
  end.
Proof.
  induction fs as [|f fs IH]; intros ps d Hf Hn Hv; cbn [foldM]; [repeat split; auto|].
  inversion Hf as [|? ? Hf1 Hf2]; subst. pose proof (ref_step_spec c f ps d Hf1 Hn Hv) as S.
  destruct (ref_step sp c f ps d) as [d1|e]; cbn [bind]; [|now rewrite S].
  destruct S as (S1 & S2 & S3 & S4). rewrite S1. cbn [bind].
  assert (V1 : Forall (valid d1) ps) by (eapply Forall_impl; [|exact Hv]; intros q; apply S4).
  specialize (IH ps d1 Hf2 Hn V1). destruct (foldM _ d1 fs) as [d2|e]; [|exact IH].
  destruct IH as (I1 & I2 & I3 & I4). split; [exact I1|]. split; [|split].
  - intros q Hq. now rewrite I2, S2.
  - intros q. now rewrite I3, S3.
  - intros q. now rewrite I4, S4.
Qed.
Lemma entity_result_eq c l : foldM (fun l f => entity_step sp c f l) l (ref_steps search regexes c) = entity_result search regexes sp c l.
Proof.
  unfold ref_steps, entity_result. cbn [foldM].
  destruct (entity_step _ _ _ l) as [a|]; [|reflexivity]. cbn [bind].
  destruct (entity_step _ _ _ a) as [b|]; [|reflexivity]. cbn [bind].
  destruct (entity_step _ _ _ b) as [e|]; [|reflexivity]. cbn [bind].
  destruct (entity_step _ _ _ e); reflexivity.
Qed.
Lemma entities_spec c gs : forall d, NoDup (concat (map snd gs)) -> Forall (valid d) (concat (map snd gs)) ->
  match foldM (fun d (g : ostr * list (nat * nat)) => foldM (fun d f => ref_step sp c f (snd g) d) d (ref_steps search regexes c)) d gs with
  | Ok d' => Forall (fun g => entity_result search regexes sp c (views d (snd g)) = Ok (views d' (snd g))) gs /\
      (forall q, ~ In q (concat (map snd gs)) -> view d' q = view d q) /\
      (forall q, main_at d' q = main_at d q) /\ (forall q, valid d' q <-> valid d q)
  | Err e => exists g, In g gs /\ entity_result search regexes sp c (views d (snd g)) = Err e
  end.
Proof.
  induction gs as [|g gs IH]; intros d Hn Hv; cbn [foldM].
  - repeat split; auto.
  - cbn [map concat] in Hn, Hv. apply Forall_app in Hv as [V1 V2].
    assert (Hn2 : NoDup (snd g) /\ NoDup (concat (map snd gs)) /\ forall q, In q (snd g) -> ~ In q (concat (map snd gs))).
    { clear -Hn. induction (snd g) as [|x l IHl]; [split; [constructor|split; [exact Hn|easy]]|].
      cbn in Hn. inversion Hn as [|? ? H1 H2]; subst. destruct (IHl H2) as (A & B & C). split; [|split; [exact B|]].
      - constructor; [|exact A]. intros H. apply H1. apply in_or_app. now left.
      - intros q [<-|Hq]; [|now apply C]. intros H. apply H1. apply in_or_app. now right. }
    destruct Hn2 as (N1 & N2 & N3).
    pose proof (ref_steps_spec c (ref_steps search regexes c) (snd g) d (steps_length c) N1 V1) as S.
    destruct (foldM _ d (ref_steps search regexes c)) as [d1|e]; cbn [bind].
    2:{ exists g. split; [now left|]. now rewrite <- entity_result_eq. }
    rewrite entity_result_eq in S. destruct S as (S1 & S2 & S3 & S4).
    assert (V3 : Forall (valid d1) (concat (map snd gs))) by (eapply Forall_impl; [|exact V2]; intros q; apply S4).
    specialize (IH d1 N2 V3).
    assert (E1 : forall h, In h gs -> views d1 (snd h) = views d (snd h)).
    { intros h Hh. unfold views. apply map_ext_in. intros q Hq. apply S2. intros Hg. apply (N3 q Hg).
      apply in_concat. exists (snd h). split; [now apply in_map|exact Hq]. }
    destruct (foldM _ d1 gs) as [d2|e].
    + destruct IH as (I1 & I2 & I3 & I4). split; [|split; [|split]].
      * constructor.
        -- rewrite S1. f_equal. unfold views. apply map_ext_in. intros q Hq. symmetry. apply I2. now apply N3.
        -- rewrite Forall_forall in *. intros h Hh. rewrite <- (E1 h Hh). now apply I1.
      * intros q Hq. cbn [map concat] in Hq. rewrite I2, S2; [reflexivity| |]; intros H; apply Hq; apply in_or_app; auto.
      * intros q. now rewrite I3, S3.
      * intros q. now rewrite I4, S4.
    + destruct IH as (h & Hh & E). exists h. split; [now right|]. now rewrite <- E1.
Qed.

(** positions of words *)
Lemma word_indices_spec i l : forall j p, In p (word_indices sp i j l) <->
  exists k t, p = (i, j + k) /\ nth_error l k = Some t /\ is_word sp t = true.
Proof.
  induction l as [|x l IH]; intros j p; cbn [word_indices].
  - split; [easy|]. intros (k & t & _ & H & _). destruct k; discriminate.
  - rewrite in_app_iff, IH. split.
    + intros [H|(k & t & -> & H1 & H2)].
      * destruct (is_space sp x) eqn:E; [easy|]. destruct H as [<-|[]]. exists 0, x. rewrite Nat.add_0_r. unfold is_word. now rewrite E.
      * exists (S k), t. split; [f_equal; lia|]. auto.
    + intros ([|k] & t & -> & H1 & H2).
      * injection H1 as ->. unfold is_word in H2. left. destruct (is_space sp t); [discriminate|]. left. f_equal. lia.
      * right. exists k, t. split; [f_equal; lia|]. auto.
Qed.
Lemma word_positions_spec d : forall i p, In p (word_positions sp i d) <->
  exists k j t l, p = (i + k, j) /\ nth_error d k = Some l /\ nth_error l j = Some t /\ is_word sp t = true.
Proof.
  induction d as [|x d IH]; intros i p; cbn [word_positions].
  - split; [easy|]. intros (k & j & t & l & _ & H & _). destruct k; discriminate.
  - rewrite in_app_iff, IH, word_indices_spec. split.
    + intros [(k & t & -> & H1 & H2)|(k & j & t & l & -> & H1 & H2 & H3)].
      * exists 0, k, t, x. rewrite Nat.add_0_r. auto.
      * exists (S k), j, t, l. split; [f_equal; lia|]. auto.
    + intros ([|k] & j & t & l & -> & H1 & H2 & H3).
      * injection H1 as ->. left. exists j, t. rewrite Nat.add_0_r. auto.
      * right. exists k, j, t, l. split; [f_equal; lia|]. auto.
Qed.
Lemma word_indices_NoDup i l : forall j, NoDup (word_indices sp i j l).
Proof.
  induction l as [|x l IH]; intros j; [constructor|]. cbn [word_indices]. destruct (is_space sp x); cbn [app]; [apply IH|].
  constructor; [|apply IH]. rewrite word_indices_spec. intros (k & t & [= H] & _). lia.
Qed.
Lemma NoDup_app' {A} (a b : list A) : NoDup a -> NoDup b -> (forall x, In x a -> ~ In x b) -> NoDup (a ++ b).
Proof.
  induction 1 as [|x a Hx Ha IH]; intros Hb Hd; [exact Hb|]. cbn. constructor.
  - rewrite in_app_iff. intros [H|H]; [contradiction|]. exact (Hd x (or_introl eq_refl) H).
  - apply IH; [exact Hb|]. intros y Hy. apply Hd. now right.
Qed.
Lemma word_positions_NoDup d : forall i, NoDup (word_positions sp i d).
Proof.
  induction d as [|l d IH]; intros i; [constructor|]. cbn [word_positions]. apply NoDup_app'; [apply word_indices_NoDup|apply IH|].
  intros p Hp Hq. apply word_indices_spec in Hp as (k & t & -> & _). apply word_positions_spec in Hq as (k' & j & t' & l' & [= H _] & _). lia.
Qed.

Lemma main_tag_at_eq d p : main_tag_at d p = main_at d p.
Proof. unfold main_tag_at, main_at, tok_at. destruct (nth_error d (fst p)); reflexivity. Qed.
Lemma entities_ext {A} (f g : A -> ostr) l : (forall x, f x = g x) -> tag_entities f l = tag_entities g l.
Proof.
  intros H. unfold tag_entities. generalize (@None str) as pv. generalize (@nil A) as pending.
  induction l as [|x l IH]; intros pending pv; [reflexivity|]. cbn [entities_go]. rewrite H.
  destruct (split_tag_prefix (g x)) as [p v]. destruct pending; [apply IH|]. destruct (_ || _); [|apply IH]. f_equal. apply IH.
Qed.
Lemma annotate_spec c d :
  match annotate_references search regexes sp c d with
  | Ok d' => Forall (fun g => entity_result search regexes sp c (views d (snd g)) = Ok (views d' (snd g))) (references sp d) /\
      (forall q, ~ is_word_at sp d q -> view d' q = view d q) /\
      (forall q, main_at d' q = main_at d q) /\ (forall q, valid d' q <-> valid d q)
  | Err e => exists g, In g (references sp d) /\ entity_result search regexes sp c (views d (snd g)) = Err e
  end.
Proof.
  unfold annotate_references. rewrite (entities_ext _ (main_at d)) by apply main_tag_at_eq.
  change (tag_entities (main_at d) (word_positions sp 0 d)) with (references sp d).
  assert (E : concat (map snd (references sp d)) = word_positions sp 0 d) by apply C25_partition.
  assert (W : forall q, In q (word_positions sp 0 d) <-> is_word_at sp d q).
  { intros q. rewrite word_positions_spec. unfold is_word_at, tok_at. split.
    - intros (k & j & t & l & -> & H1 & H2 & H3). exists t. cbn [fst snd Nat.add]. rewrite H1. auto.
    - intros (t & H1 & H2). destruct (nth_error d (fst q)) as [l|] eqn:El; [|discriminate].
      exists (fst q), (snd q), t, l. destruct q. auto. }
  pose proof (entities_spec c (references sp d) d) as S. rewrite E in S.
  assert (V : Forall (valid d) (word_positions sp 0 d)).
  { rewrite Forall_forall. intros q Hq. apply W in Hq as (t & Hq & _). unfold valid. congruence. }
  specialize (S (word_positions_NoDup d 0) V). destruct (foldM _ d (references sp d)); [|exact S].
  destruct S as (S1 & S2 & S3 & S4). split; [exact S1|]. split; [|auto].
  intros q Hq. apply S2. now rewrite W.
Qed.
End Proof.

(* ---------------------------------------------------------------- *)
(** ** Theorems *)
Section Theorems.
Variable search : str -> str -> option Z.
Variable regexes : list (str * str).
Variable sp : N -> bool.
Variable c : ref_config.

(** The references are made of the words of the document, in order, each word in one of
    them. *)
Theorem C65_words d :
  concat (map snd (references sp d)) = word_positions sp 0 d /\ NoDup (word_positions sp 0 d) /\
  (forall p, In p (word_positions sp 0 d) <-> is_word_at sp d p) /\
  Forall (entity (main_at d)) (references sp d) /\ apart_all (main_at d) (references sp d).
Proof.
  destruct (C25_partition (main_at d) (word_positions sp 0 d)) as (H1 & H2 & H3).
  split; [exact H1|]. split; [apply word_positions_NoDup|]. split; [|auto].
  intros q. rewrite word_positions_spec. unfold is_word_at, tok_at. split.
  - intros (k & j & t & l & -> & K1 & K2 & K3). exists t. cbn [fst snd Nat.add]. rewrite K1. auto.
  - intros (t & K1 & K2). destruct (nth_error d (fst q)) as [l|] eqn:El; [|discriminate].
    exists (fst q), (snd q), t, l. destruct q. auto.
Qed.
(** The new sub tags of every reference depend on its own tokens only, and text, white
    space and main tags as well as the sub tags of spaces do not change. *)
Theorem C65_entities d d' : annotate_references search regexes sp c d = Ok d' ->
  (forall v g, In (v, g) (references sp d) -> entity_result search regexes sp c (views d g) = Ok (views d' g)) /\
  (forall p, ~ is_word_at sp d p -> view d' p = view d p) /\
  (forall p, main_at d' p = main_at d p) /\
  (forall p, rt_text (view d' p) = rt_text (view d p) /\ rt_ws (view d' p) = rt_ws (view d p)).
Proof.
  intros H. pose proof (annotate_spec search regexes sp c d) as S. rewrite H in S. destruct S as (S1 & S2 & S3 & S4).
  split; [|split; [exact S2|split; [exact S3|]]].
  - intros v g Hg. rewrite Forall_forall in S1. exact (S1 _ Hg).
  - intros p.
    assert (D : is_word_at sp d p \/ ~ is_word_at sp d p).
    { unfold is_word_at. destruct (tok_at d p) as [t|]; [|right; intros (t & [=] & _)].
      destruct (is_word sp t) eqn:E; [left; eauto|right; intros (t' & [= <-] & ?); congruence]. }
    destruct D as [D|D]; [|now rewrite S2].
    destruct (C65_words d) as (W1 & _ & W3 & _). apply W3 in D. rewrite <- W1 in D. apply in_concat in D as (g & Hg & Hp).
    apply in_map_iff in Hg as (e & <- & He). rewrite Forall_forall in S1. specialize (S1 e He).
    (* the texts of an entity are unchanged *)
    assert (K : forall f l l', keeps_length f -> entity_step sp c f l = Ok l' ->
      map rt_text l' = map rt_text l /\ map rt_ws l' = map rt_ws l).
    { clear. intros f l l' Hf H. unfold entity_step in H. destruct (f (map (prepared sp c) l)) as [ts|] eqn:E; [|discriminate].
      apply Hf in E. rewrite map_length in E. cbn in H. injection H as <-. unfold renew. rewrite !map_map. cbn. clear Hf.
      revert ts E. induction l as [|x l IH]; intros [|t ts] E; try discriminate; [auto|]. injection E as E.
      destruct (IH ts E) as [A B]. cbn. split; f_equal; assumption. }
    assert (KK : forall fs l l', Forall keeps_length fs -> foldM (fun l f => entity_step sp c f l) l fs = Ok l' ->
      map rt_text l' = map rt_text l /\ map rt_ws l' = map rt_ws l).
    { intros fs. induction fs as [|f fs IH]; intros l l' Hf Hl; [injection Hl as <-; auto|]. inversion Hf; subst. cbn [foldM] in Hl.
      destruct (entity_step sp c f l) as [l1|] eqn:E1; [|discriminate]. cbn [bind] in Hl. apply K in E1; [|assumption].
      apply IH in Hl; [|assumption]. destruct E1, Hl. split; congruence. }
    rewrite <- entity_result_eq in S1. apply KK in S1; [|apply steps_length]. destruct S1 as [T1 T2].
    unfold views in T1, T2. rewrite !map_map in T1, T2. clear -Hp T1 T2.
    induction (snd e) as [|q l IHl]; [easy|]. cbn in T1, T2. injection T1 as T1 T1'. injection T2 as T2 T2'.
    destruct Hp as [<-|Hp]; [auto|now apply IHl].
Qed.
(** It fails only if it does for one of the references. *)
Theorem C65_error d e : annotate_references search regexes sp c d = Err e ->
  exists v g, In (v, g) (references sp d) /\ entity_result search regexes sp c (views d g) = Err e.
Proof.
  intros H. pose proof (annotate_spec search regexes sp c d) as S. rewrite H in S. destruct S as ([v g] & S1 & S2). eauto.
Qed.
(** With a regular expression for every field whose prefix is looked for, it does not. *)
Theorem C65_total d : (forall f, In f (prefix_fields regexes (rc_prefix c)) -> dict_get f regexes <> None) ->
  exists d', annotate_references search regexes sp c d = Ok d'.
Proof.
  intros H. destruct (annotate_references search regexes sp c d) as [d'|e] eqn:E; [eauto|]. exfalso.
  apply C65_error in E as (v & g & _ & E). unfold entity_result, entity_step in E. cbn [bind] in E.
  destruct (C24_suffix_total (rc_suffix c) (map (prepared sp c)
    (renew (etal_mapped (rc_etal c) (rc_etal_merge c) (map rt_tag (map (prepared sp c) (views d g)))) (views d g)))) as (r & Er & _).
  rewrite Er in E. cbn [bind] in E.
  match type of E with context [prefix_extended _ _ _ ?x] => destruct (C24_prefix_total search regexes (rc_prefix c) x H) as [r2 E2] end.
  rewrite E2 in E. discriminate.
Qed.
End Theorems.

Definition ex_ref_tok (m s : ostr) (x : string) : tok := mkTok (u x) m s None None (Some (u " ")).
Definition ex_ref_doc : doc :=
  [[ex_ref_tok (Some (u "b-ref")) (Some (u "b-author")) "Smith"; ex_ref_tok (Some (u "i-ref")) (Some (u "b-etal")) "et"; ex_ref_tok None None " ";
    ex_ref_tok (Some (u "i-ref")) (Some (u "i-etal")) "al"; ex_ref_tok (Some (u "i-ref")) None "."];
   [ex_ref_tok (Some (u "i-ref")) None ","; ex_ref_tok (Some (u "i-ref")) None "doi"; ex_ref_tok (Some (u "i-ref")) (Some (u "b-doi")) "10"];
   [ex_ref_tok (Some (u "b-ref")) (Some (u "b-etal")) "et"; ex_ref_tok (Some (u "i-ref")) (Some (u "b-title")) "On"]].
Definition ex_ref_config : ref_config := mkRefConfig [(u "doi", u "id")] [u "author"] None [u "author"] (u "etal") [u "author"].
Example C65_ex : exists d', annotate_references ex_search [(u "id", u "d")] ascii_space ex_ref_config ex_ref_doc = Ok d' /\
  map (map sub) d' =
  [[Some (u "b-author"); Some (u "i-author"); None; Some (u "i-author"); Some (u "i-author")];
   [None; Some (u "b-id"); Some (u "i-id")];
   [Some (u "b-etal"); Some (u "b-title")]].
Proof. eexists. split; [vm_compute; reflexivity|]. reflexivity. Qed.

(** Mapping a tag keeps its prefix; the value is looked up, or stays if it is not listed. *)
Theorem C65_map_tag m p v : v <> [] -> (p = B_PREFIX \/ p = I_PREFIX) ->
  exists w, (In (v, w) m \/ (~ In v (map fst m) /\ w = v)) /\ map_tag m (Some (p ++ v)) = add_tag_prefix (Some w) (Some p).
Proof.
  intros Hv Hp. assert (E : split_tag_prefix (Some (p ++ v)) = (Some p, Some v)).
  { destruct v as [|c v]; [easy|]. destruct Hp as [-> | ->]; [exact (split_add_b (c :: v) Hv) | exact (split_add_i (c :: v) Hv)]. }
  assert (M : map_tag m (Some (p ++ v)) = add_tag_prefix (Some (match dict_get v m with Some y => y | None => v end)) (Some p)).
  { unfold map_tag. rewrite E. destruct v; [easy|reflexivity]. }
  rewrite M. clear M E Hv Hp. rename v into x.
  assert (D : forall y, dict_get x m = Some y -> In (x, y) m).
  { clear. induction m as [|[k y0] m IH]; [easy|]. intros y. cbn [dict_get]. destruct (streq x k) eqn:E.
    - apply streq_true in E. subst. intros [= ->]. now left.
    - intros H. right. now apply IH. }
  assert (D' : dict_get x m = None -> ~ In x (map fst m)).
  { clear. induction m as [|[k y0] m IH]; [easy|]. cbn [dict_get map fst]. destruct (streq x k) eqn:E; [discriminate|].
    apply streq_false in E. intros H [Q|Q]; [congruence|now apply IH]. }
  destruct (dict_get x m) as [y|] eqn:E; [exists y|exists x]; auto.
Qed.
Example C65_map_ex : map_tag [(u "a", u "b")] (Some (u "i-a")) = Some (u "i-b") /\ map_tag [(u "a", u "b")] (Some (u "b-c")) = Some (u "b-c").
Proof. split; reflexivity. Qed.

Print Assumptions C65_map_tag.
Print Assumptions C65_words.
Print Assumptions C65_entities.
Print Assumptions C65_error.
Print Assumptions C65_total.
