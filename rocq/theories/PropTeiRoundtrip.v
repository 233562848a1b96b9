(** C07: saving a document and loading the result. *)
From Verif Require Import Base ModelTags ModelTokenize ModelXml ModelTei ProofXml ProofTags
  ProofTokenize SpecTeiRead ProofTeiRead ProofTeiLoad PropTokenize PropTeiRead SpecTeiWrite ProofTeiWrite ProofTeiSave
  PropTeiWrite ProofTeiRoundtrip.

(** What is saved can be loaded (with any mapping). *)
Theorem C07_loads : forall sp wd up lo node_ok mapping mapping' preserve name ls r,
  lines_to_tei sp node_ok mapping name ls = Ok r ->
  exists ls', new_document sp wd up lo mapping' preserve [r] = Ok ls'.
Proof.
  intros. apply C56_loads_iff. cbn. rewrite andb_true_r. apply fine_loadable.
  exact (proj1 (lines_to_tei_fine _ _ _ _ _ _ H)).
Qed.

(** The text is the same. *)
Theorem C07_text : forall sp wd up lo node_ok mapping mapping' preserve name ls r ls',
  name <> [] ->
  lines_to_tei sp node_ok mapping name ls = Ok r ->
  new_document sp wd up lo mapping' preserve [r] = Ok ls' ->
  concat (map tx (concat ls')) = concat (map tx (concat ls)).
Proof.
  intros sp wd up lo node_ok m m' pr name ls r ls' Hn H H'.
  pose proof (lines_to_tei_fine _ _ _ _ _ _ H) as (Hf & text & cs & ->).
  apply C03_text in H'.
  - rewrite H'. cbn [flat_map xtail]. rewrite !app_nil_r. now apply C04_text in H.
  - cbn [forallb]. rewrite andb_true_r. now apply fine_named.
Qed.

(* ---------------------------------------------------------------- *)
(** The (non blank) characters of a line, each with a value depending on its token *)
Definition ink (sp : N -> bool) (f : tok -> ostr) (l : line) : list (N * ostr) :=
  flat_map (fun t => map (fun c => (c, f t)) (filter (fun c => negb (sp c)) (tx t))) l.

(** path elements denote what loading would call the element they create *)
Definition canonical (node_ok : str -> list (str * str) -> bool) (p : list str) : Prop :=
  Forall (fun f => forall n a, create_node node_ok f = Ok (n, a) ->
    n <> u "lb" /\ forall text cs tl, node_to_tag_expression (Elem n a text cs tl) = Ok f) p.

(** A word that keeps its tag: untagged, or its main tag is mapped to a path that
    is mapped to this tag only (last) and does not lie below another mapped path. *)
Definition keeps_tag (node_ok : str -> list (str * str) -> bool) (mapping : list (str * str)) (t : tok) : Prop :=
  (value (shown_tag t) = None /\ value (shown_sub_tag t) = None) \/
  exists v p, value (shown_tag t) = Some v /\ v <> [] /\
    dict_get v mapping = Some p /\ field_of mapping p = v /\
    canonical node_ok (split_path p) /\
    (forall q, prefix q (split_path p) -> q <> [] -> q <> split_path p -> ~ In (join_path q) (map snd mapping)) /\
    (* sub tags *)
    (value (shown_sub_tag t) = None \/
     exists w, value (shown_sub_tag t) = Some w /\ w <> [] /\ canonical node_ok (path_of mapping w)).

(* ---------------------------------------------------------------- *)
(** helper lemmas *)
Definition sep {A} (ls : list (list A)) : list (option A) :=
  match ls with [] => [] | l :: ls' => map Some l ++ flat_map (fun l => None :: map Some l) ls' end.
Lemma sep_split {A} (a b : list A) X Y :
  (X = [] \/ exists X', X = None :: X') -> (Y = [] \/ exists Y', Y = None :: Y') ->
  map Some a ++ X = map Some b ++ Y -> a = b /\ X = Y.
Proof.
  intros HX HY. revert b. induction a as [|x a IH]; intros [|y b] H; cbn in H.
  - auto.
  - destruct HX as [->|[X' ->]]; discriminate.
  - destruct HY as [->|[Y' ->]]; discriminate.
  - injection H as -> H. apply IH in H as [-> ->]. auto.
Qed.
Lemma sep_tail {A} (l : list (list A)) :
  flat_map (fun l => None :: map Some l) l = [] \/ exists X', flat_map (fun l => None :: map Some l) l = None :: X'.
Proof. destruct l; cbn; eauto. Qed.
Lemma sep_inj {A} (l1 l2 : list (list A)) : l1 <> [] -> l2 <> [] -> sep l1 = sep l2 -> l1 = l2.
Proof.
  destruct l1 as [|a l1]; [congruence|]. destruct l2 as [|b l2]; [congruence|]. intros _ _ H. cbn in H.
  apply sep_split in H as [-> H]; try apply sep_tail. f_equal.
  revert l2 H. induction l1 as [|x l1 IH]; intros [|y l2] H; cbn in H; try discriminate; [reflexivity|].
  injection H as H. apply sep_split in H as [-> H]; try apply sep_tail. f_equal. now apply IH.
Qed.

Definition item_vals (i : item) : list (option (N * ostr)) :=
  match i with ITok s t => map (fun c => Some (c, value t)) s | ILb => [None] end.
Definition lift (f : str -> str) (o : option (N * ostr)) : option (N * ostr) :=
  match o with Some (c, v) => Some (c, option_map f v) | None => None end.
Lemma rename_value f s t : prefixed (ITok s t) ->
  item_vals (rename f (ITok s t)) = map (lift f) (item_chars (ITok s t)).
Proof.
  destruct t as [t|]; [|intros _; cbn; now rewrite map_map].
  intros [v H]. cbn [rename item_vals item_chars]. rewrite map_map. apply map_ext. intros c. cbn [lift option_map].
  do 3 f_equal. destruct H as [-> | ->].
  - change (skipn 2 (u "b-" ++ v)) with v. destruct (f v); reflexivity.
  - change (skipn 2 (u "i-" ++ v)) with v. destruct (f v); reflexivity.
Qed.
Lemma rename_values f l : Forall prefixed l ->
  flat_map item_vals (map (rename f) l) = map (lift f) (flat_map item_chars l).
Proof.
  induction 1 as [|i l Hi HF IH]; [reflexivity|]. cbn [map flat_map]. rewrite map_app, IH. f_equal.
  destruct i as [s t|]; [now apply rename_value|reflexivity].
Qed.
Lemma filter_lift sp f l : filter (inked sp) (map (lift f) l) = map (lift f) (filter (inked sp) l).
Proof.
  induction l as [|[[c v]|] l IH]; cbn; [reflexivity| |]; rewrite IH; [|reflexivity].
  destruct (negb (sp c)); reflexivity.
Qed.
Lemma line_vals sp f (l : line) :
  filter (inked sp) (flat_map item_vals (map (fun t => ITok (tx t) (f t)) l))
  = map Some (ink sp (fun t => value (f t)) l).
Proof.
  induction l as [|t l IH]; [reflexivity|]. cbn [map flat_map ink]. rewrite filter_app, map_app, IH. f_equal.
  cbn [item_vals]. rewrite map_map. induction (tx t) as [|c s IHs]; [reflexivity|]. cbn [map filter inked].
  destruct (negb (sp c)); cbn [map]; now rewrite IHs.
Qed.
Lemma lines_vals sp f ls :
  filter (inked sp) (flat_map item_vals (items_of_lines f ls)) = sep (map (ink sp (fun t => value (f t))) ls).
Proof.
  destruct ls as [|l ls]; [reflexivity|]. cbn [map sep]. revert l.
  induction ls as [|l' ls IH]; intros l.
  - cbn [items_of_lines map flat_map]. rewrite app_nil_r. apply line_vals.
  - change (items_of_lines f (l :: l' :: ls)) with
      (map (fun t => ITok (tx t) (f t)) l ++ ILb :: items_of_lines f (l' :: ls)).
    rewrite flat_map_app, filter_app, line_vals. f_equal. cbn [flat_map item_vals app filter inked map]. f_equal.
    apply IH.
Qed.

Lemma T_nil rp : T rp [] = None.
Proof. reflexivity. Qed.

Lemma located_exprs node_ok p a : located node_ok p a -> canonical node_ok p ->
  exprs a = p /\ no_lb node_ok p.
Proof.
  unfold located. induction 1 as [|f [i [n at_]] p a Hm HF IH]; intros Hc; [split; [reflexivity|constructor]|].
  inversion Hc as [|? ? Hf Hc']; subst. destruct (IH Hc') as [IH1 IH2]. cbn [snd] in Hm.
  destruct (Hf _ _ Hm) as [H1 H2]. split.
  - cbn [exprs map snd]. change (map (fun x => node_expr (snd x)) a) with (exprs a). rewrite IH1. f_equal.
    specialize (H2 [] [] []). cbn in H2.
    destruct at_ as [|[k v] [|]]; try discriminate; injection H2 as H2; exact H2.
  - constructor; [|exact IH2]. intros na Hna. rewrite Hm in Hna. injection Hna as <-. exact H1.
Qed.
Lemma exprs_firstn n a : exprs (firstn n a) = firstn n (exprs a).
Proof. unfold exprs. now rewrite firstn_map. Qed.
Lemma dict_get_in {A} k (d : list (str * A)) v : dict_get k d = Some v -> In v (map snd d).
Proof.
  induction d as [|[k' v'] d IH]; cbn; [discriminate|]. destruct (streq k k').
  - intros H. injection H as <-. now left.
  - intros H. right. auto.
Qed.

(** raw value (path) of a word that keeps its tag *)
Definition raw (m : list (str * str)) (t : tok) : ostr :=
  match value (shown_tag t) with Some v => dict_get v m | None => None end.
Lemma keeps_raw node_ok m t a : keeps_tag node_ok m t -> dict_get [] m = None ->
  located node_ok (required_path m t) a ->
  T (map snd m) a = raw m t /\ option_map (field_of m) (raw m t) = value (shown_tag t) /\
  no_lb node_ok (required_path m t) /\ (T (map snd m) a = None -> a = []).
Proof.
  intros [[Hm Hs]|(v & p & Hv & Hne & Hd & Hfo & Hcan & Hout & Hsub)] H0 HL.
  - (* untagged *)
    assert (Er : required_path m t = []).
    { unfold required_path, sub_path, main_path.
      replace (sub_full_tag t) with (@None str).
      2:{ symmetry. unfold value in Hs. change (shown_sub_tag t) with (sub_full_tag t) in Hs.
          destruct (sub_full_tag t) as [s|]; [|reflexivity]. unfold split_tag_prefix in Hs. destruct s; [discriminate|].
          destruct (starts_with _ _); [discriminate|]. destruct (starts_with _ _); discriminate. }
      cbn [truthy]. replace (strip_tag_prefix (main_full_tag t)) with (@None str) by (symmetry; exact Hm).
      cbn. now rewrite H0. }
    rewrite Er in *. inversion HL; subst. unfold raw. rewrite Hm. split; [reflexivity|]. split; [reflexivity|].
    split; [constructor|auto].
  - assert (Ep : path_of m v = split_path p) by (unfold path_of; now rewrite Hd).
    assert (Em : main_path m t = split_path p) by (rewrite <- Ep; now apply main_path_value).
    assert (Hcr : canonical node_ok (required_path m t)).
    { unfold required_path. destruct (sub_path m t) as [q|] eqn:Es; [|rewrite Em; exact Hcan].
      unfold sub_path in Es. destruct (truthy (sub_full_tag t)) eqn:Et; [|discriminate].
      destruct Hsub as [Hs|(w & Hw & Hwne & Hwc)].
      - exfalso. unfold value in Hs. change (shown_sub_tag t) with (sub_full_tag t) in Hs.
        destruct (sub_full_tag t) as [[|c s]|]; try discriminate. unfold split_tag_prefix in Hs.
        destruct (starts_with _ _); [discriminate|]. destruct (starts_with _ _); discriminate.
      - replace (strip_tag_prefix (sub_full_tag t)) with (Some w) in Es by (symmetry; exact Hw).
        rewrite path_some in Es by assumption. destruct (path_starts_with _ _); [|discriminate].
        injection Es as <-. exact Hwc. }
    destruct (located_exprs _ _ _ HL Hcr) as [Hex Hnl].
    pose proof (main_prefix_required m t) as Hpre. rewrite Em in Hpre.
    set (n := length (split_path p)).
    assert (Hln : n <= length a).
    { unfold n. replace (length a) with (length (exprs a)) by (unfold exprs; apply map_length).
      rewrite Hex. now apply prefix_length. }
    assert (Hea : exprs (firstn n a) = split_path p).
    { rewrite exprs_firstn, Hex. now apply prefix_firstn. }
    assert (Hn0 : 0 < n).
    { unfold n. pose proof (split_path_nonnil p). destruct (split_path p); [congruence|cbn; lia]. }
    assert (HT : T (map snd m) a = Some p).
    { rewrite (T_at (map snd m) (firstn n a) a).
      - now rewrite Hea, C05_split_join.
      - apply prefix_firstn_self.
      - intros E. apply (f_equal (@length _)) in E. rewrite firstn_length in E. cbn in E. lia.
      - intros b Hb Hb1 Hb2. unfold root. apply mem_nIn. apply Hout.
        + rewrite <- Hea. destruct Hb as [c ->]. exists (exprs c). unfold exprs. apply map_app.
        + destruct b; [congruence|discriminate].
        + intros E. apply Hb2. destruct Hb as [c Hc]. rewrite Hc in *.
          assert (HLc : length (exprs b) = length (exprs (b ++ c))) by (now rewrite E, Hea).
          unfold exprs in HLc. rewrite !map_length, app_length in HLc.
          destruct c; [now rewrite app_nil_r|cbn in HLc; lia].
      - unfold root. apply mem_In. rewrite Hea, C05_split_join. eapply dict_get_in; exact Hd. }
    unfold raw. rewrite Hv, Hd. split; [exact HT|]. split; [cbn; now rewrite Hfo|]. split; [exact Hnl|].
    rewrite HT. discriminate.
Qed.

Lemma blank_filter sp s : blank sp s = true -> filter (fun c => negb (sp c)) s = [].
Proof.
  induction s as [|c s IH]; [reflexivity|]. cbn [blank forallb]. rewrite andb_true_iff. intros [H1 H2].
  cbn. rewrite H1. now apply IH.
Qed.
Lemma filter_pv_chars sp rp a s :
  filter (inked sp) (map (pv rp) (map (PChar a) s)) = map (fun c => Some (c, T rp a)) (filter (fun c => negb (sp c)) s).
Proof.
  induction s as [|c s IH]; [reflexivity|]. cbn [map filter pv inked]. destruct (negb (sp c)); cbn [map]; now rewrite IH.
Qed.
Definition skel_vals (sp : N -> bool) (f : tok -> ostr) (o : option tok) : list (option (N * ostr)) :=
  match o with Some t => map (fun c => Some (c, f t)) (filter (fun c => negb (sp c)) (tx t)) | None => [None] end.
Lemma evs_vals sp rp f evs :
  (forall t a, In (t, a) (ev_words sp evs) -> T rp a = f t) ->
  filter (inked sp) (map (pv rp) (flat_map flat_ev evs)) = flat_map (skel_vals sp f) (ev_skeleton sp evs).
Proof.
  induction evs as [|[t a|a] evs IH]; intros H; [reflexivity| |].
  - cbn [flat_map flat_ev ev_skeleton]. rewrite map_app, filter_app, filter_pv_chars.
    unfold ev_words in H. cbn [flat_map] in H. fold (ev_words sp evs) in H. fold (ev_skeleton sp evs).
    rewrite IH by (intros t' a' Hin; apply H; apply in_or_app; now right).
    unfold ev_skeleton. cbn [flat_map]. fold (ev_skeleton sp evs). rewrite flat_map_app. f_equal.
    destruct (is_space sp t) eqn:E.
    + rewrite (blank_filter sp (tx t) E). reflexivity.
    + rewrite (H t a) by (now left). cbn. now rewrite app_nil_r.
  - cbn [flat_map flat_ev app map filter pv inked]. unfold ev_skeleton. cbn [flat_map app skel_vals].
    f_equal. apply IH. exact H.
Qed.
Lemma skel_line sp f (l : line) : flat_map (skel_vals sp f) (skeleton sp (map Some l)) = map Some (ink sp f l).
Proof.
  induction l as [|t l IH]; [reflexivity|]. cbn [map skeleton filter ink flat_map].
  fold (skeleton sp (map Some l)). rewrite map_app, map_map.
  destruct (is_space sp t) eqn:E; cbn [negb].
  - rewrite (blank_filter sp (tx t) E). exact IH.
  - cbn [flat_map]. now rewrite IH.
Qed.
Lemma skel_lines sp f ls : flat_map (skel_vals sp f) (skeleton sp (lines_items ls)) = sep (map (ink sp f) ls).
Proof.
  destruct ls as [|l ls]; [reflexivity|]. unfold lines_items, skeleton. rewrite filter_app, flat_map_app.
  fold (skeleton sp (map Some l)). rewrite skel_line. cbn [map sep]. f_equal.
  induction ls as [|l' ls IH]; [reflexivity|]. cbn [flat_map map]. rewrite filter_app, flat_map_app.
  rewrite IH. cbn [filter]. cbn [flat_map skel_vals app]. f_equal.
  fold (skeleton sp (map Some l')). now rewrite skel_line.
Qed.

(** Lines, characters and main tags are the same. *)
Theorem C07_tags : forall sp wd up lo node_ok mapping name ls r ls' l0 last,
  name <> [] -> dict_get [] mapping = None ->
  lines_to_tei sp node_ok mapping name ls = Ok r ->
  new_document sp wd up lo mapping true [r] = Ok ls' ->
  (forall t, In t (concat ls) -> is_space sp t = false -> keeps_tag node_ok mapping t) ->
  (* the last line is not blank *)
  ls = l0 ++ [last] -> (exists t, In t last /\ is_space sp t = false) ->
  map (ink sp (fun t => value (ptag t))) ls' = map (ink sp (fun t => value (shown_tag t))) ls.
Proof.
  intros sp wd up lo node_ok m name ls r ls' l0 last Hn H0 H H' Hk Hls Hlast.
  pose proof (lines_to_tei_layout _ _ _ _ _ _ H) as (evs & W & L1 & L2 & L3 & L4 & L5 & L6 & _).
  pose proof (lines_to_tei_fine _ _ _ _ _ _ H) as (Hf & text & cs & Er).
  assert (Hw : forall t a, In (t, a) (ev_words sp evs) -> keeps_tag node_ok m t /\ located node_ok (required_path m t) a).
  { intros t a Hin. rewrite L4 in Hin. apply in_map_iff in Hin as ([[rs t'] a'] & E & Hin). cbn in E. injection E as -> ->.
    apply linked_located in L6. rewrite Forall_forall in L6. specialize (L6 _ Hin). cbn [fst snd] in L6.
    assert (Hin2 : In t (map snd (map fst W))) by (rewrite map_map; apply in_map_iff; exists (rs, t, a); auto).
    rewrite L3 in Hin2. apply words_go_in in Hin2 as [H1 H2]. split; [now apply Hk|exact L6]. }
  assert (Hnl : forall t, In t (concat ls) -> is_space sp t = false -> no_lb node_ok (required_path m t)).
  { intros t Ht Hs. assert (Hin2 : In t (map snd (map fst W))) by (rewrite L3; apply words_go_in; auto).
    rewrite map_map in Hin2. apply in_map_iff in Hin2 as ([[rs t'] a] & E & Hin). cbn in E. subst t'.
    assert (Hin3 : In (t, a) (ev_words sp evs)) by (rewrite L4; apply in_map_iff; exists (rs, t, a); auto).
    destruct (Hw _ _ Hin3) as [K1 K2]. apply (keeps_raw node_ok m t a K1 H0 K2). }
  pose proof (lines_to_tei_tidy _ _ _ _ _ _ Hnl H) as Ht.
  assert (Hname : named r = true) by (apply fine_named; [exact Hf|now rewrite Er]).
  pose proof (C57_main_tags _ _ _ _ _ _ _ Hname H') as [Hit _].
  set (its := container_items sp wd up lo (map snd m) r) in *.
  assert (HE : filter (inked sp) (flat_map item_chars its) = sep (map (ink sp (raw m)) ls)).
  { rewrite <- skel_lines, <- L5. rewrite <- (evs_vals sp (map snd m) (raw m) evs).
    2:{ intros t a Hin. destruct (Hw _ _ Hin) as [K1 K2]. apply (keeps_raw node_ok m t a K1 H0 K2). }
    rewrite <- L1. unfold its. rewrite Er in *. apply container_flat; [exact Ht|exact Hf|].
    intros b c Hin Hb Hs. rewrite L1 in Hin. apply in_flat_map in Hin as (e & He & Hin).
    destruct e as [t a|a]; [|destruct Hin as [Hin|[]]; discriminate].
    cbn [flat_ev] in Hin. apply in_map_iff in Hin as (x & Hx & Hinx). injection Hx as -> ->.
    assert (Hsp : is_space sp t = false).
    { unfold is_space. apply not_true_iff_false. intros Hbl. unfold blank in Hbl. rewrite forallb_forall in Hbl.
      rewrite (Hbl _ Hinx) in Hs. discriminate. }
    assert (Hin3 : In (t, b) (ev_words sp evs)).
    { unfold ev_words. apply in_flat_map. exists (EvTok t b). split; [exact He|]. rewrite Hsp. now left. }
    destruct (Hw _ _ Hin3) as [K1 K2]. destruct (keeps_raw node_ok m t b K1 H0 K2) as (_ & _ & _ & K5). auto. }
  assert (Hlast_ink : exists x y, sep (map (ink sp (raw m)) ls) = x ++ [Some y]).
  { destruct Hlast as (t & Hin & Hs).
    assert (Hne : ink sp (raw m) last <> []).
    { apply nonblank_char in Hs as (c & Hc & Hs'). intros E.
      assert (Hx : In (c, raw m t) (ink sp (raw m) last)).
      { apply in_flat_map. exists t. split; [exact Hin|]. apply in_map_iff. exists c. split; [reflexivity|].
        apply filter_In. now rewrite Hs'. }
      rewrite E in Hx. destruct Hx. }
    destruct (exists_last Hne) as (y & z & Ey).
    rewrite Hls, map_app. cbn [map]. rewrite Ey.
    destruct (map (ink sp (raw m)) l0) as [|k ks].
    - cbn [app sep flat_map]. rewrite app_nil_r, map_app. eexists _, z. reflexivity.
    - cbn [app sep]. rewrite flat_map_app. cbn [flat_map]. rewrite app_nil_r, map_app. cbn [map].
      exists (map Some k ++ flat_map (fun l => None :: map Some l) ks ++ None :: map Some y), z.
      rewrite <- !app_assoc. reflexivity. }
  assert (Hwf : without_final_break its = its).
  { destruct its as [|i0 its0] eqn:Ei; [reflexivity|]. assert (Hni : i0 :: its0 <> []) by discriminate.
    destruct (exists_last Hni) as (l & i & El). rewrite El in *. destruct i as [s t|]; [apply without_final_break_tok|].
    exfalso. rewrite flat_map_app, filter_app in HE. cbn in HE.
    destruct Hlast_ink as (x & y & Ex). rewrite Ex in HE. apply app_inj_tail in HE as [_ HE]. discriminate. }
  rewrite Hwf in Hit.
  assert (HS : sep (map (ink sp (fun t => value (ptag t))) ls') = sep (map (ink sp (fun t => value (shown_tag t))) ls)).
  { rewrite <- lines_vals, Hit, rename_values by (apply prefixed_container).
    rewrite filter_lift, HE.
    assert (HL : forall l : line, incl l (concat ls) ->
       map (fun x : N * ostr => (fst x, option_map (field_of m) (snd x))) (ink sp (raw m) l) = ink sp (fun t => value (shown_tag t)) l).
    { induction l as [|t l IHl]; intros Hincl; [reflexivity|]. cbn [ink flat_map]. rewrite map_app.
      fold (ink sp (raw m) l). fold (ink sp (fun t => value (shown_tag t)) l).
      rewrite IHl by (intros z Hz; apply Hincl; now right). f_equal. rewrite map_map. cbn [fst snd].
      destruct (is_space sp t) eqn:Es; [now rewrite (blank_filter sp (tx t) Es)|].
      assert (Hin2 : In t (map snd (map fst W))).
      { rewrite L3. apply words_go_in. split; [apply Hincl; now left|exact Es]. }
      rewrite map_map in Hin2. apply in_map_iff in Hin2 as ([[rs t'] a] & E & Hin). cbn in E. subst t'.
      assert (Hin3 : In (t, a) (ev_words sp evs)) by (rewrite L4; apply in_map_iff; exists (rs, t, a); auto).
      destruct (Hw _ _ Hin3) as [K1 K2]. destruct (keeps_raw node_ok m t a K1 H0 K2) as (_ & K3 & _). now rewrite K3. }
    assert (HM : forall l : list (N * ostr), map (lift (field_of m)) (map Some l)
      = map Some (map (fun x : N * ostr => (fst x, option_map (field_of m) (snd x))) l)).
    { intros l. rewrite !map_map. apply map_ext. now intros []. }
    assert (HI : forall l, In l ls -> incl l (concat ls)).
    { intros l Hl t Htl. apply in_concat. eauto. }
    clear -HL HM HI. revert HL HI. generalize (concat ls) as all. intros all HL HI.
    destruct ls as [|l ls]; [reflexivity|]. cbn [map sep]. rewrite map_app, HM, HL by (apply HI; now left). f_equal.
    assert (HI' : forall l, In l ls -> incl l all) by (intros x Hx; apply HI; now right). clear HI.
    induction ls as [|l' ls IH]; [reflexivity|]. cbn [map flat_map]. rewrite map_app. cbn [map lift].
    rewrite HM, HL by (apply HI'; now left). cbn [app]. f_equal. f_equal. apply IH.
    intros x Hx. apply HI'. now right. }
  apply sep_inj in HS; [exact HS| |].
  - destruct ls'; [|discriminate]. exfalso. cbn in HS. symmetry in Hit. cbn in Hit.
    apply map_eq_nil in Hit. rewrite Hit in HE. cbn in HE. destruct Hlast_ink as (x & y & Ex). rewrite Ex in HE.
    symmetry in HE. apply app_eq_nil in HE as [_ HE]. discriminate.
  - rewrite Hls. destruct l0; discriminate.
Qed.

(** concrete document meeting the hypotheses *)
Definition ex_rmapping : list (str * str) :=
  [(u "title", u "docTitle/titlePart"); (u "byline", u "byline"); (u "author", u "byline/docAuthor[@n=""1""]")].
Example C07_ex : 
  (forall t, In t (concat ex_wlines) -> is_space ascii_space t = false -> keeps_tag any_node ex_rmapping t) /\
  exists r ls', lines_to_tei ascii_space any_node ex_rmapping (u "front") ex_wlines = Ok r /\
    new_document ascii_space ascii_word ascii_upper ascii_lower ex_rmapping true [r] = Ok ls' /\
    map (map ptag) ls' = [[Some (u "b-title"); Some (u "i-title"); Some (u "i-title")];
      [Some (u "i-title"); Some (u "i-title"); None; Some (u "b-byline"); Some (u "i-byline"); Some (u "i-byline"); None]].
Proof.
  split.
  - assert (C1 : forall p, In p [u "docTitle/titlePart"; u "byline"; u "byline/docAuthor[@n=""1""]"] -> canonical any_node (split_path p)).
    { assert (G : forall f n a, In (f, (n, a)) [(u "docTitle", (u "docTitle", [])); (u "titlePart", (u "titlePart", []));
          (u "byline", (u "byline", [])); (u "docAuthor[@n=""1""]", (u "docAuthor", [(u "n", u "1")]))] ->
        forall n' a', create_node any_node f = Ok (n', a') ->
        n' <> u "lb" /\ forall text cs tl, node_to_tag_expression (Elem n' a' text cs tl) = Ok f).
      { intros f n a Hin n' a' H. cbn [In] in Hin.
        repeat (destruct Hin as [E|Hin]; [injection E as <- <- <-; vm_compute in H; injection H as <- <-;
          split; [discriminate|reflexivity]|]). destruct Hin. }
      intros p Hp. cbn [In] in Hp. destruct Hp as [<-|[<-|[<-|[]]]].
      - repeat (constructor; [eapply G; cbn [In]; eauto 6|]). constructor.
      - repeat (constructor; [eapply G; cbn [In]; eauto 6|]). constructor.
      - repeat (constructor; [eapply G; cbn [In]; eauto 6|]). constructor. }
    assert (P1 : forall q p, prefix q (split_path p) -> q <> [] -> q <> split_path p ->
       In p [u "docTitle/titlePart"; u "byline"] -> ~ In (join_path q) (map snd ex_rmapping)).
    { intros q p [c Hc] Hq1 Hq2 Hp. destruct Hp as [<-|[<-|[]]].
      - change (split_path (u "docTitle/titlePart")) with [u "docTitle"; u "titlePart"] in *.
        destruct q as [|q1 [|q2 [|]]]; try discriminate; try congruence.
        + injection Hc as <- _. intros Hin. vm_compute in Hin. intuition discriminate.
        + injection Hc as <- <- _. congruence.
      - change (split_path (u "byline")) with [u "byline"] in *.
        destruct q as [|q1 [|]]; try discriminate; try congruence. injection Hc as <- _. congruence. }
    intros t Ht Hs. cbn [concat ex_wlines app] in Ht.
    repeat (destruct Ht as [<-|Ht]; [
      first [discriminate Hs | left; split; reflexivity |
        right; first [
          exists (u "title"), (u "docTitle/titlePart"); (split; [reflexivity|]); (split; [discriminate|]);
          (split; [reflexivity|]); (split; [reflexivity|]); (split; [apply C1; now left|]);
          (split; [intros q A B C; apply (P1 q _ A B C); now left|]); left; reflexivity
        | exists (u "byline"), (u "byline"); (split; [reflexivity|]); (split; [discriminate|]);
          (split; [reflexivity|]); (split; [reflexivity|]); (split; [apply C1; right; now left|]);
          (split; [intros q A B C; apply (P1 q _ A B C); right; now left|]);
          first [left; reflexivity | right; exists (u "author"); (split; [reflexivity|]); (split; [discriminate|]);
            apply C1; right; right; now left]]] |]).
    destruct Ht.
  - eexists _, _. split; [vm_compute; reflexivity|]. split; [vm_compute; reflexivity|]. vm_compute. reflexivity.
Qed.

(** With nested mapped paths the tag changes: the outer one is found. *)
Theorem C07_nested_refuted : exists mapping ls r ls',
  lines_to_tei ascii_space any_node mapping (u "front") ls = Ok r /\
  new_document ascii_space ascii_word ascii_upper ascii_lower mapping true [r] = Ok ls' /\
  map (map (fun t => value (shown_tag t))) ls = [[Some (u "author")]] /\
  map (map (fun t => value (ptag t))) ls' = [[Some (u "byline")]].
Proof.
  exists [(u "byline", u "byline"); (u "author", u "byline/docAuthor")], [[mk "Smith" (Some (u "b-author")) None]].
  eexists _, _. repeat (split; [vm_compute; reflexivity|]). vm_compute. reflexivity.
Qed.

Print Assumptions C07_loads.
Print Assumptions C07_text.
Print Assumptions C07_tags.
Print Assumptions C07_nested_refuted.
