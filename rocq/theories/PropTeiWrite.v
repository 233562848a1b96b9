(** C04, C05, C06, C55: saving.  The specification is in SpecTeiWrite.v. *)
From Verif Require Import Base ModelTags ModelXml ModelTei
  ProofXml ProofTags SpecTeiWrite ProofTeiWrite ProofTeiSave.

(* ---------------------------------------------------------------- *)
(** helper lemmas *)
Definition tok_addrs (evs : list ev) : list (tok * addr) :=
  flat_map (fun e => match e with EvTok t a => [(t, a)] | EvLb _ => [] end) evs.
Definition is_char (p : piece) : bool := match p with PChar _ _ => true | PLb _ => false end.
Lemma filter_map_chars a s : filter is_char (map (PChar a) s) = map (PChar a) s.
Proof. induction s; cbn; congruence. Qed.
Lemma evs_chars evs : filter is_char (flat_map flat_ev evs)
  = flat_map (fun x => map (PChar (snd x)) (tx (fst x))) (tok_addrs evs).
Proof.
  induction evs as [|[t a|a] evs IH]; [reflexivity| |exact IH].
  cbn [flat_map flat_ev tok_addrs app]. rewrite filter_app, filter_map_chars, IH. reflexivity.
Qed.
Lemma tok_addrs_toks evs : map fst (tok_addrs evs) = ev_toks evs.
Proof. induction evs as [|[t a|a] evs IH]; cbn; [reflexivity| |exact IH]. now f_equal. Qed.
Lemma tok_addrs_words sp evs : ev_words sp evs = filter (fun x => negb (is_space sp (fst x))) (tok_addrs evs).
Proof.
  induction evs as [|[t a|a] evs IH]; [reflexivity| |exact IH].
  change (tok_addrs (EvTok t a :: evs)) with ((t, a) :: tok_addrs evs). cbn [filter fst]. rewrite <- IH.
  unfold ev_words. cbn [flat_map]. destruct (is_space sp t); reflexivity.
Qed.
Lemma tok_addrs_unique sp : forall l1 l2 : list (tok * addr),
  map fst l1 = map fst l2 ->
  flat_map (fun x => map (PChar (snd x)) (tx (fst x))) l1 = flat_map (fun x => map (PChar (snd x)) (tx (fst x))) l2 ->
  filter (fun x => negb (is_space sp (fst x))) l1 = filter (fun x => negb (is_space sp (fst x))) l2.
Proof.
  induction l1 as [|[t a] l1 IH]; intros [|[t' a'] l2] H1 H2; try discriminate; [reflexivity|].
  cbn [map fst] in H1. injection H1 as -> H1. cbn [flat_map fst snd] in H2.
  assert (HL : forall (x1 x2 y1 y2 : list piece), length x1 = length x2 -> x1 ++ y1 = x2 ++ y2 -> x1 = x2 /\ y1 = y2).
  { induction x1 as [|x x1 IHx]; intros [|x' x2] y1 y2 HL HE; try discriminate; [auto|].
    cbn in HE. injection HE as -> HE. injection HL as HL. destruct (IHx _ _ _ HL HE) as [-> ->]. auto. }
  apply HL in H2 as [H2 H3]; [|now rewrite !map_length].
  cbn [filter fst]. rewrite (IH _ H1 H3). destruct (is_space sp t') eqn:E; [reflexivity|]. cbn [negb].
  destruct (tx t') as [|c s] eqn:Et; [unfold is_space in E; rewrite Et in E; discriminate|].
  cbn in H2. injection H2 as -> _. reflexivity.
Qed.

Lemma layout_words_eq W1 W2 : map fst W1 = map fst W2 ->
  map (fun x : list str * tok * addr => (snd (fst x), snd x)) W1 = map (fun x => (snd (fst x), snd x)) W2 -> W1 = W2.
Proof.
  revert W2. induction W1 as [|[[rs t] a] W1 IH]; intros [|[[rs' t'] a'] W2] H1 H2; try discriminate; [reflexivity|].
  cbn in *. injection H1 as -> -> H1. injection H2 as -> H2. f_equal. now apply IH.
Qed.

(* ---------------------------------------------------------------- *)
(** ** C04 *)

(** Saving succeeds exactly when all required elements can be created. *)
Theorem C04_saves_iff : forall sp node_ok mapping name ls,
  (exists r, lines_to_tei sp node_ok mapping name ls = Ok r) <->
  (forall t, In t (concat ls) -> is_space sp t = false -> creatable node_ok (required_path mapping t)).
Proof. exact lines_to_tei_ok. Qed.

(** The text of the container is the text of all tokens in order. *)
Theorem C04_text : forall sp node_ok mapping name ls r,
  lines_to_tei sp node_ok mapping name ls = Ok r ->
  content r = concat (map tx (concat ls)).
Proof.
  intros sp node_ok m name ls r H. apply lines_to_tei_layout in H as (evs & W & H1 & H2 & _).
  rewrite <- (flat_content r []), H1, evs_text, H2. apply flat_map_concat_map.
Qed.

(** Words and line breaks occur in the container in the order of the lines. *)
Theorem C04_lines : forall sp node_ok mapping name ls r,
  lines_to_tei sp node_ok mapping name ls = Ok r ->
  exists evs, flat [] r = flat_map flat_ev evs /\
    ev_toks evs = concat ls /\
    ev_skeleton sp evs = skeleton sp (lines_items ls).
Proof.
  intros sp node_ok m name ls r H. apply lines_to_tei_layout in H as (evs & W & H1 & H2 & _ & _ & H3 & _).
  eauto.
Qed.

(** One line break less than lines (unless elements named [lb] are asked for). *)
Theorem C04_breaks : forall sp node_ok mapping name ls r,
  (forall t, In t (concat ls) -> is_space sp t = false -> no_lb node_ok (required_path mapping t)) ->
  lines_to_tei sp node_ok mapping name ls = Ok r ->
  count_name (u "lb") r = length ls - 1.
Proof.
  intros sp node_ok m name ls r Hn H. pose proof (lines_to_tei_tidy _ _ _ _ _ _ Hn H) as Ht.
  apply lines_to_tei_layout in H as (evs & W & H1 & _ & _ & _ & H3 & _).
  change (u "lb") with LB. rewrite (count_tidy r [] Ht), H1, (evs_lb sp), H3, skeleton_lb.
  now rewrite Nat.sub_1_r.
Qed.

(** The tree contains every word at one place, and only one. *)
Theorem C04_layout_exists : forall sp node_ok mapping name ls r,
  lines_to_tei sp node_ok mapping name ls = Ok r -> exists W, layout sp r ls W.
Proof.
  intros sp node_ok m name ls r H. apply lines_to_tei_layout in H as (evs & W & H1 & H2 & H3 & H4 & _).
  exists W, evs. auto.
Qed.
Theorem C04_layout_unique : forall sp r ls W1 W2,
  layout sp r ls W1 -> layout sp r ls W2 -> W1 = W2.
Proof.
  intros sp r ls W1 W2 (e1 & A1 & A2 & A3 & A4) (e2 & B1 & B2 & B3 & B4).
  apply layout_words_eq; [congruence|]. rewrite A4, B4, !tok_addrs_words.
  apply tok_addrs_unique.
  - rewrite !tok_addrs_toks. congruence.
  - rewrite <- !evs_chars. congruence.
Qed.

(** all facts about the layout *)
Lemma layout_linked sp node_ok m name ls r W :
  lines_to_tei sp node_ok m name ls = Ok r -> layout sp r ls W ->
  linked node_ok m [] [] [] W.
Proof.
  intros H HW. apply lines_to_tei_layout in H as (evs & W' & H1 & H2 & H3 & H4 & _ & H5 & _).
  assert (W = W'); [|subst; exact H5].
  eapply C04_layout_unique; [exact HW|]. exists evs. auto.
Qed.

(* ---------------------------------------------------------------- *)
(** ** C05 *)
Lemma linked_located node_ok m W : forall path a earlier,
  linked node_ok m path a earlier W ->
  Forall (fun x => located node_ok (required_path m (snd (fst x))) (snd x)) W.
Proof.
  induction W as [|[[rs t] b] W IH]; intros path a earlier H; [constructor|].
  cbn [linked] in H. destruct H as (H1 & _ & _ & _ & _ & H2). constructor; [exact H1|]. eapply IH; exact H2.
Qed.
Lemma path_some m v : v <> [] -> tag_required_path m (Some v) = path_of m v.
Proof. destruct v; [congruence|reflexivity]. Qed.
Lemma value_truthy o v : value o = Some v -> v <> [] -> truthy o = true.
Proof.
  unfold value. destruct o as [[|c s]|]; cbn; try discriminate; [|reflexivity].
  intros H Hv. injection H as <-. congruence.
Qed.

Theorem C05_located : forall sp node_ok mapping name ls r W rs t a,
  lines_to_tei sp node_ok mapping name ls = Ok r -> layout sp r ls W ->
  In (rs, t, a) W ->
  (* without tags: directly in the container *)
  (value (shown_tag t) = None -> value (shown_sub_tag t) = None -> dict_get [] mapping = None -> a = []) /\
  (* main tag: inside an element with the mapped path ... *)
  (forall v, value (shown_tag t) = Some v -> v <> [] ->
     exists b, prefix b a /\ located node_ok (path_of mapping v) b /\
       (* ... directly, if there is no sub tag below it, *)
       (value (shown_sub_tag t) = None -> a = b) /\
       (forall w, value (shown_sub_tag t) = Some w -> w <> [] ->
          (* ... else at the path mapped to the sub tag *)
          (prefix (path_of mapping v) (path_of mapping w) -> located node_ok (path_of mapping w) a) /\
          (~ prefix (path_of mapping v) (path_of mapping w) -> a = b))).
Proof.
  intros sp node_ok m name ls r W rs t a H HW Hin.
  pose proof (layout_linked _ _ _ _ _ _ _ H HW) as HL.
  apply linked_located in HL. rewrite Forall_forall in HL. specialize (HL _ Hin). cbn [fst snd] in HL.
  split.
  - intros Hm Hs Hd. unfold required_path, sub_path, main_path in HL.
    assert (E : strip_tag_prefix (main_full_tag t) = None) by exact Hm.
    assert (E2 : sub_full_tag t = None).
    { unfold value in Hs. change (shown_sub_tag t) with (sub_full_tag t) in Hs.
      destruct (sub_full_tag t) as [s|]; [|reflexivity].
      unfold split_tag_prefix in Hs. destruct s; [discriminate|]. destruct (starts_with _ _); [discriminate|].
      destruct (starts_with _ _); discriminate. }
    rewrite E2 in HL. cbn [truthy] in HL. rewrite E in HL. cbn [tag_required_path] in HL. rewrite Hd in HL.
    inversion HL. reflexivity.
  - intros v Hv Hne.
    assert (Em : main_path m t = path_of m v).
    { unfold main_path. rewrite <- path_some by assumption. f_equal. exact Hv. }
    destruct (main_prefix_required m t) as [q Hq]. rewrite Hq in HL.
    apply Forall2_app_inv_l in HL as (b & c & Hb & Hc & ->). rewrite Em in *.
    exists b. split; [now exists c|]. split; [exact Hb|]. split.
    + intros Hs.
      assert (E2 : truthy (sub_full_tag t) = false).
      { destruct (sub_full_tag t) as [s|] eqn:E; [|reflexivity].
        unfold value in Hs. change (shown_sub_tag t) with (sub_full_tag t) in Hs. rewrite E in Hs.
        unfold split_tag_prefix in Hs. destruct s; [discriminate|]. destruct (starts_with _ _); [discriminate|].
        destruct (starts_with _ _); discriminate. }
      unfold required_path, sub_path in Hq. rewrite E2, Em in Hq.
      assert (q = []) by (rewrite <- (app_nil_r (path_of m v)) in Hq at 1; now apply app_inv_head in Hq).
      subst q. inversion Hc. now rewrite app_nil_r.
    + intros w Hw Hwne. unfold required_path, sub_path in Hq.
      rewrite (value_truthy (sub_full_tag t) w Hw Hwne) in Hq. rewrite Em in Hq.
      replace (strip_tag_prefix (sub_full_tag t)) with (Some w) in Hq by (symmetry; exact Hw).
      rewrite path_some in Hq by assumption.
      destruct (path_starts_with _ _) eqn:E.
      * apply starts_prefix in E. split; [intros _|tauto]. rewrite Hq. now apply Forall2_app.
      * assert (Hn : ~ prefix (path_of m v) (path_of m w)) by (rewrite <- starts_prefix; congruence).
        split; [tauto|]. intros _.
        assert (q = []) by (rewrite <- (app_nil_r (path_of m v)) in Hq at 1; now apply app_inv_head in Hq).
        subst q. inversion Hc. now rewrite app_nil_r.
Qed.

(* ---------------------------------------------------------------- *)
(** ** C06 *)
Lemma linked_split node_ok m W1 : forall path a earlier x W2,
  linked node_ok m path a earlier (W1 ++ x :: W2) ->
  exists path' a', linked node_ok m path' a' (earlier ++ map snd W1) (x :: W2) /\
    (W1 = [] /\ path' = path /\ a' = a \/
     exists W0 y, W1 = W0 ++ [y] /\ path' = required_path m (snd (fst y)) /\ a' = snd y).
Proof.
  induction W1 as [|y W1 IH]; intros path a earlier x W2 H.
  - exists path, a. cbn. rewrite app_nil_r. auto.
  - destruct y as [[rs t] b]. cbn [app linked] in H. destruct H as (_ & _ & _ & _ & _ & H).
    apply IH in H as (path' & a' & H & Hc). exists path', a'. cbn [map snd].
    rewrite <- app_assoc in H. split; [exact H|]. right. destruct Hc as [(-> & -> & ->) | (W0 & y & -> & -> & ->)].
    + exists [], (rs, t, b). auto.
    + exists ((rs, t, b) :: W0), y. auto.
Qed.
Lemma firstn_prefix_of {A} (P b : list A) k : prefix P b -> k <= length P -> prefix (firstn k b) P.
Proof.
  intros [r ->] Hk. rewrite firstn_app. replace (k - length P) with 0 by lia.
  rewrite firstn_O, app_nil_r. apply prefix_firstn_self.
Qed.
Lemma linked_left node_ok m P W : forall path a earlier c,
  linked node_ok m path a earlier W -> In c earlier -> prefix P c -> ~ prefix P a ->
  forall x, In x W -> ~ prefix P (snd x).
Proof.
  induction W as [|[[rs t] b] W IH]; intros path a earlier c H Hc HP Ha x Hx; [destruct Hx|].
  cbn [linked] in H. destruct H as (H1 & H2 & H3 & H4 & H5 & H6).
  assert (Hb : ~ prefix P b).
  { intros Hb. destruct (le_lt_dec (length P) (length (keep m path rs t))) as [Hle|Hlt].
    - apply Ha. rewrite <- (prefix_firstn P b Hb).
      rewrite <- (Nat.min_l _ _ Hle), <- firstn_firstn, H4, firstn_firstn. apply prefix_firstn_self.
    - assert (length P <= length b) by (now apply prefix_length).
      apply (H5 ltac:(lia) c Hc). eapply prefix_trans; [|exact HP]. apply firstn_prefix_of; [exact Hb|lia]. }
  destruct Hx as [<-|Hx]; [exact Hb|].
  eapply (IH _ _ _ c H6); eauto. apply in_or_app. now left.
Qed.

(** The words inside an element are consecutive. *)
Theorem C06_contiguous : forall sp node_ok mapping name ls r W1 W2 W3 x y z P,
  lines_to_tei sp node_ok mapping name ls = Ok r ->
  layout sp r ls (W1 ++ x :: W2 ++ z :: W3) ->
  prefix P (snd x) -> prefix P (snd z) -> In y W2 -> prefix P (snd y).
Proof.
  intros sp node_ok m name ls r W1 W2 W3 x y z P H HW Hx Hz Hy.
  pose proof (layout_linked _ _ _ _ _ _ _ H HW) as HL.
  assert (Hdec : prefix P (snd y) \/ ~ prefix P (snd y)).
  { destruct (list_eq_dec (fun p q : nat * node => ltac:(repeat decide equality) : {p = q} + {p <> q}) (firstn (length P) (snd y)) P) as [E|E].
    - left. rewrite <- E. apply prefix_firstn_self.
    - right. intros HP. apply E. now apply prefix_firstn. }
  destruct Hdec as [|Hn]; [assumption|exfalso].
  apply in_split in Hy as (U & V & ->). rewrite <- app_assoc in HL. cbn [app] in HL.
  change (W1 ++ x :: U ++ y :: V ++ z :: W3) with (W1 ++ (x :: U) ++ y :: V ++ z :: W3) in HL.
  rewrite app_assoc in HL. apply linked_split in HL as (path' & a' & HL & _).
  destruct y as [[rs t] b]. cbn [linked] in HL. destruct HL as (_ & _ & _ & _ & _ & HL).
  cbn [snd] in Hn.
  assert (Hin : In (snd x) (([] ++ map snd (W1 ++ x :: U)) ++ [b])).
  { cbn [app]. apply in_or_app. left. rewrite map_app. apply in_or_app. right. now left. }
  apply (linked_left _ _ P _ _ _ _ (snd x) HL Hin Hx Hn z); [|exact Hz].
  apply in_or_app. right. now left.
Qed.

Lemma linked_keep sp node_ok m name ls r W1 W2 rs t b :
  lines_to_tei sp node_ok m name ls = Ok r -> layout sp r ls (W1 ++ (rs, t, b) :: W2) ->
  exists path a,
    let k := length (keep m path rs t) in
    k <= length a /\ k <= length b /\ firstn k b = firstn k a /\
    (k < length b -> forall c, In c (map snd W1) -> ~ prefix (firstn (S k) b) c) /\
    located node_ok (required_path m t) b /\
    (W1 = [] \/ exists W0 y, W1 = W0 ++ [y] /\ path = required_path m (snd (fst y)) /\ a = snd y).
Proof.
  intros H HW. pose proof (layout_linked _ _ _ _ _ _ _ H HW) as HL.
  apply linked_split in HL as (path & a & HL & Hc). exists path, a. cbn [linked] in HL.
  destruct HL as (H1 & H2 & H3 & H4 & H5 & _). cbn [app] in H5.
  split; [exact H2|]. split; [exact H3|]. split; [exact H4|]. split; [exact H5|]. split; [exact H1|].
  destruct Hc as [(-> & _)|Hc]; auto.
Qed.
Lemma linked_new sp node_ok m name ls r W1 W2 rs t b n :
  lines_to_tei sp node_ok m name ls = Ok r -> layout sp r ls (W1 ++ (rs, t, b) :: W2) ->
  (forall path, length (keep m path rs t) < n) -> n <= length (required_path m t) ->
  forall x, In x W1 -> ~ prefix (firstn n b) (snd x).
Proof.
  intros H HW Hk Hn x Hx HP. destruct (linked_keep _ _ _ _ _ _ _ _ _ _ _ H HW) as (path & a & HK).
  cbv zeta in HK. destruct HK as (_ & _ & _ & H5 & H6 & _).
  specialize (Hk path). apply Forall2_length in H6. 
  assert (HL : length (keep m path rs t) < length b).
  { eapply Nat.lt_le_trans; [exact Hk|]. eapply Nat.le_trans; [exact Hn|]. apply Nat.eq_le_incl. exact H6. }
  apply (H5 HL (snd x)); [now apply in_map|].
  eapply prefix_trans; [|exact HP]. apply firstn_prefix_of; [apply prefix_firstn_self|].
  rewrite firstn_length. lia.
Qed.

Lemma main_path_value m t v : value (shown_tag t) = Some v -> v <> [] -> main_path m t = path_of m v.
Proof. intros Hv Hne. unfold main_path. rewrite <- path_some by assumption. f_equal. exact Hv. Qed.
Lemma shown_split t : split_tag_prefix (main_full_tag t) = (fst (split_tag_prefix (shown_tag t)), value (shown_tag t)).
Proof. unfold value. now destruct (split_tag_prefix (shown_tag t)) eqn:E; unfold shown_tag, main_full_tag in *; rewrite E. Qed.
Lemma shown_sub_split t : split_tag_prefix (sub_full_tag t) = (fst (split_tag_prefix (shown_sub_tag t)), value (shown_sub_tag t)).
Proof. unfold value. now destruct (split_tag_prefix (shown_sub_tag t)) eqn:E; unfold shown_sub_tag, sub_full_tag in *; rewrite E. Qed.

Lemma split_path_nonnil s : split_path s <> [].
Proof.
  unfold split_path. generalize (@nil N) as cur. generalize false as b.
  induction s as [|c s IH]; intros b cur; cbn; [discriminate|].
  destruct (_ && _); [discriminate|apply IH].
Qed.
Lemma path_of_nonnil m v : path_of m v <> [].
Proof. apply split_path_nonnil. Qed.

(** A word with a begin tag lies in a new element: no earlier word lies in the
    element its main tag is mapped to.  Likewise if the begin tag was on a space
    since the word before. *)
Theorem C06_begin : forall sp node_ok mapping name ls r W1 W2 rs t a v,
  lines_to_tei sp node_ok mapping name ls = Ok r ->
  layout sp r ls (W1 ++ (rs, t, a) :: W2) ->
  value (shown_tag t) = Some v -> v <> [] ->
  begin (shown_tag t) = true \/ In v rs ->
  forall x, In x W1 -> ~ prefix (firstn (length (path_of mapping v)) a) (snd x).
Proof.
  intros sp node_ok m name ls r W1 W2 rs t a v H HW Hv Hne Hb.
  pose proof (path_of_nonnil m v) as Hnn.
  apply (linked_new _ _ _ _ _ _ _ _ _ _ _ _ H HW).
  - intros path. unfold keep. rewrite shown_split, Hv. fold (begin (shown_tag t)).
    destruct (begin (shown_tag t)) eqn:Eb.
    + rewrite (main_path_value m t v Hv Hne).
      pose proof (prefix_length _ _ (common_prefix_r path (removelast (path_of m v)))) as HL.
      rewrite removelast_length in HL. destruct (path_of m v); [congruence|]. cbn [length] in *. lia.
    + destruct Hb as [Hb|Hb]; [discriminate|]. cbn [omem]. apply mem_In in Hb. rewrite Hb.
      destruct (path_of m v); [congruence|]. cbn. lia.
  - rewrite <- (main_path_value m t v Hv Hne). apply prefix_length. apply main_prefix_required.
Qed.

(** A word with a begin sub tag (below its main tag) lies in a new element. *)
Theorem C06_begin_sub : forall sp node_ok mapping name ls r W1 W2 rs t a v w,
  lines_to_tei sp node_ok mapping name ls = Ok r ->
  layout sp r ls (W1 ++ (rs, t, a) :: W2) ->
  value (shown_tag t) = Some v -> v <> [] ->
  value (shown_sub_tag t) = Some w -> w <> [] -> prefix (path_of mapping v) (path_of mapping w) ->
  begin (shown_sub_tag t) = true ->
  forall x, In x W1 -> ~ prefix a (snd x).
Proof.
  intros sp node_ok m name ls r W1 W2 rs t a v w H HW Hv Hne Hw Hwne Hpre Hb x Hx.
  pose proof (path_of_nonnil m w) as Hnn.
  assert (Es : sub_path m t = Some (path_of m w)).
  { unfold sub_path. rewrite (value_truthy (sub_full_tag t) w Hw Hwne).
    replace (strip_tag_prefix (sub_full_tag t)) with (Some w) by (symmetry; exact Hw).
    rewrite path_some, (main_path_value m t v Hv Hne) by assumption.
    apply starts_prefix in Hpre. now rewrite Hpre. }
  assert (Er : required_path m t = path_of m w) by (unfold required_path; now rewrite Es).
  assert (HL : length a = length (path_of m w)).
  { rewrite <- Er. pose proof (layout_linked _ _ _ _ _ _ _ H HW) as HL. apply linked_located in HL.
    rewrite Forall_forall in HL. specialize (HL _ (in_elt _ _ _)). now apply Forall2_length in HL. }
  rewrite <- (firstn_all a). apply (linked_new _ _ _ _ _ _ _ _ _ _ _ _ H HW); [|rewrite Er; lia|exact Hx].
  intros path. rewrite HL. unfold keep. rewrite shown_split, shown_sub_split, Hv, Es. cbn [fst].
  fold (begin (shown_tag t)). fold (begin (shown_sub_tag t)). rewrite Hb.
  destruct (begin (shown_tag t)).
  - rewrite (main_path_value m t v Hv Hne).
    pose proof (prefix_length _ _ (common_prefix_r path (removelast (path_of m v)))) as HL1.
    rewrite removelast_length in HL1. apply prefix_length in Hpre.
    destruct (path_of m v) eqn:E; [now apply path_of_nonnil in E|]. cbn [length] in *. lia.
  - destruct (path_of m w) eqn:E; [congruence|]. cbn [omem]. destruct (mem v rs); [cbn; lia|].
    rewrite <- E.
    pose proof (prefix_length _ _ (common_prefix_r path (removelast (path_of m w)))) as HL1.
    rewrite removelast_length, E in HL1. rewrite E. cbn [length] in *. lia.
Qed.

(** Continuation: a word without begin tag and with the main tag of the word
    before lies in the same element - unless a space between them begins an
    entity, or a begin sub tag does not lie below the main path. *)
Theorem C06_continue : forall sp node_ok mapping name ls r W1 W2 rs1 t1 a1 rs t a v,
  lines_to_tei sp node_ok mapping name ls = Ok r ->
  layout sp r ls (W1 ++ (rs1, t1, a1) :: (rs, t, a) :: W2) ->
  value (shown_tag t1) = Some v -> value (shown_tag t) = Some v -> v <> [] ->
  begin (shown_tag t) = false -> ~ In v rs ->
  (begin (shown_sub_tag t) = false \/
   exists w, value (shown_sub_tag t) = Some w /\ w <> [] /\
     prefix (path_of mapping v) (removelast (path_of mapping w))) ->
  let n := length (path_of mapping v) in firstn n a = firstn n a1.
Proof.
  intros sp node_ok m name ls r W1 W2 rs1 t1 a1 rs t a v H HW Hv1 Hv Hne Hb Hrs Hs n.
  replace (W1 ++ (rs1, t1, a1) :: (rs, t, a) :: W2) with ((W1 ++ [(rs1, t1, a1)]) ++ (rs, t, a) :: W2) in HW
    by (now rewrite <- app_assoc).
  destruct (linked_keep _ _ _ _ _ _ _ _ _ _ _ H HW) as (path & a' & K1 & K2 & K3 & _ & K5 & K6).
  destruct K6 as [K6|(W0 & y & K6 & -> & ->)]; [now destruct W1|].
  apply app_inj_tail in K6 as [_ <-]. cbn [fst snd] in *.
  assert (Hpre : prefix (path_of m v) (required_path m t1)).
  { rewrite <- (main_path_value m t1 v Hv1 Hne). apply main_prefix_required. }
  assert (Hpre2 : prefix (path_of m v) (required_path m t)).
  { rewrite <- (main_path_value m t v Hv Hne). apply main_prefix_required. }
  assert (Hk : n <= length (keep m (required_path m t1) rs t)).
  { apply prefix_length. unfold keep. rewrite shown_split, shown_sub_split, Hv. cbn [fst omem].
    fold (begin (shown_tag t)). fold (begin (shown_sub_tag t)). rewrite Hb.
    apply mem_nIn in Hrs. rewrite Hrs.
    destruct Hs as [Hs|(w & Hw & Hwne & Hpw)].
    - rewrite Hs. now apply common_greatest.
    - assert (Es : sub_path m t = Some (path_of m w)).
      { unfold sub_path. rewrite (value_truthy (sub_full_tag t) w Hw Hwne).
        replace (strip_tag_prefix (sub_full_tag t)) with (Some w) by (symmetry; exact Hw).
        rewrite path_some, (main_path_value m t v Hv Hne) by assumption.
        assert (Hp2 : path_starts_with (path_of m v) (path_of m w) = true).
        { apply starts_prefix. eapply prefix_trans; [exact Hpw|apply prefix_removelast]. }
        now rewrite Hp2. }
      rewrite Es. destruct (begin (shown_sub_tag t)); now apply common_greatest. }
  rewrite <- (Nat.min_l _ _ Hk), <- !firstn_firstn. f_equal. exact K3.
Qed.

(** Continuation of both tags: exactly the same element. *)
Theorem C06_continue_sub : forall sp node_ok mapping name ls r W1 W2 rs1 t1 a1 rs t a v,
  lines_to_tei sp node_ok mapping name ls = Ok r ->
  layout sp r ls (W1 ++ (rs1, t1, a1) :: (rs, t, a) :: W2) ->
  value (shown_tag t1) = Some v -> value (shown_tag t) = Some v ->
  value (shown_sub_tag t1) = value (shown_sub_tag t) ->
  begin (shown_tag t) = false -> ~ In v rs -> begin (shown_sub_tag t) = false ->
  truthy (shown_sub_tag t1) = truthy (shown_sub_tag t) ->
  a = a1.
Proof.
  intros sp node_ok m name ls r W1 W2 rs1 t1 a1 rs t a v H HW Hv1 Hv Hs1 Hb Hrs Hs Ht.
  assert (HL : located node_ok (required_path m t1) a1).
  { pose proof (layout_linked _ _ _ _ _ _ _ H HW) as HL. apply linked_located in HL.
    rewrite Forall_forall in HL. apply (HL _ (in_elt _ _ _)). }
  replace (W1 ++ (rs1, t1, a1) :: (rs, t, a) :: W2) with ((W1 ++ [(rs1, t1, a1)]) ++ (rs, t, a) :: W2) in HW
    by (now rewrite <- app_assoc).
  destruct (linked_keep _ _ _ _ _ _ _ _ _ _ _ H HW) as (path & a' & K1 & K2 & K3 & _ & K5 & K6).
  destruct K6 as [K6|(W0 & y & K6 & -> & ->)]; [now destruct W1|].
  apply app_inj_tail in K6 as [_ <-]. cbn [fst snd] in *.
  assert (E : required_path m t1 = required_path m t).
  { unfold required_path, sub_path, main_path, strip_tag_prefix.
    change (main_full_tag t1) with (shown_tag t1). change (main_full_tag t) with (shown_tag t).
    change (sub_full_tag t1) with (shown_sub_tag t1). change (sub_full_tag t) with (shown_sub_tag t).
    fold (value (shown_tag t1)). fold (value (shown_tag t)).
    fold (value (shown_sub_tag t1)). fold (value (shown_sub_tag t)).
    now rewrite Ht, Hv1, Hv, Hs1. }
  assert (Hk : keep m (required_path m t1) rs t = required_path m t).
  { unfold keep. rewrite shown_split, shown_sub_split, Hv. cbn [fst omem].
    fold (begin (shown_tag t)). fold (begin (shown_sub_tag t)). rewrite Hb, Hs.
    apply mem_nIn in Hrs. rewrite Hrs, E. apply common_of_prefix, prefix_refl. }
  rewrite Hk in K3. apply Forall2_length in HL. apply Forall2_length in K5.
  rewrite firstn_all2 in K3 by (apply Nat.eq_le_incl; symmetry; exact K5).
  rewrite firstn_all2 in K3 by (rewrite <- E; apply Nat.eq_le_incl; symmetry; exact HL). exact K3.
Qed.

(* ---------------------------------------------------------------- *)
(** ** C55 *)
Theorem C55_common_path : forall p q c,
  c = common_path p q <->
  prefix c p /\ prefix c q /\ forall d, prefix d p -> prefix d q -> prefix d c.
Proof.
  intros p q c. split.
  - intros ->. split; [apply common_prefix_l|]. split; [apply common_prefix_r|].
    intros d. apply common_greatest.
  - intros (H1 & H2 & H3).
    assert (A : prefix (common_path p q) c) by (apply H3; [apply common_prefix_l|apply common_prefix_r]).
    assert (B : prefix c (common_path p q)) by (now apply common_greatest).
    destruct A as [x Ex], B as [y Ey].
    rewrite Ex in Ey. rewrite <- app_assoc in Ey. rewrite <- (app_nil_r (common_path p q)) in Ey at 1.
    apply app_inv_head in Ey. symmetry in Ey. apply app_eq_nil in Ey as [-> _]. now rewrite app_nil_r in Ex.
Qed.

(** Moving to a path keeps exactly the common elements open. *)
Theorem C55_starts_with : forall p q, path_starts_with p q = true <-> exists r, q = p ++ r.
Proof. exact starts_prefix. Qed.

(* ---------------------------------------------------------------- *)
(** ** Paths and path elements *)

(** Splitting a path loses nothing; without braces the parts contain no slash. *)
Lemma join_split_go s : forall b cur, join_path (split_path_go b cur s) = rev cur ++ s.
Proof.
  induction s as [|c s IH]; intros b cur; cbn [split_path_go].
  - cbn. now rewrite app_nil_r.
  - destruct (N.eqb c 47 && negb b) eqn:E.
    + apply andb_true_iff in E as [E _]. apply N.eqb_eq in E. subst c.
      specialize (IH false []). cbn [rev app] in IH.
      destruct (split_path_go false [] s) as [|p ps] eqn:Es.
      { exfalso. revert Es. clear. generalize (@nil N) as cur. generalize false as b.
        induction s as [|c s IH]; intros b cur; cbn; [discriminate|].
        destruct (_ && _); [discriminate|apply IH]. }
      change (join_path (rev cur :: p :: ps)) with (rev cur ++ u "/" ++ join_path (p :: ps)).
      rewrite IH. reflexivity.
    + rewrite IH. cbn [rev]. now rewrite <- app_assoc.
Qed.
Theorem C05_split_join : forall s, join_path (split_path s) = s.
Proof. intros s. unfold split_path. now rewrite join_split_go. Qed.

Theorem C05_split_no_slash : forall s, ~ In 123%N s -> Forall (fun p => ~ In 47%N p) (split_path s).
Proof.
  intros s. unfold split_path.
  assert (G : forall cur, ~ In 47%N cur -> ~ In 123%N s -> Forall (fun p => ~ In 47%N p) (split_path_go false cur s)).
  { induction s as [|c s IH]; intros cur Hc Hs; cbn [split_path_go].
    - constructor; [|constructor]. intros H. apply in_rev in H. auto.
    - destruct (N.eqb c 47 && negb false) eqn:E.
      + constructor; [intros H; apply in_rev in H; auto|]. apply IH; [auto|]. intros H. apply Hs. now right.
      + rewrite andb_true_r in E. apply N.eqb_neq in E.
        destruct (N.eqb c 123) eqn:E2; [apply N.eqb_eq in E2; subst; exfalso; apply Hs; now left|].
        replace (if N.eqb c 125 then false else false) with false by (now destruct (N.eqb c 125)).
        apply IH; [|intros H; apply Hs; now right]. intros [H|H]; auto. }
  apply G. auto.
Qed.

(** A path element in the form used when loading denotes the element it was made
    from. *)
Lemma span_app f a c b : forallb f a = true -> f c = false -> span f (a ++ c :: b) = (a, c :: b).
Proof.
  intros Ha Hc. induction a as [|x a IH]; cbn in *.
  - now rewrite Hc.
  - apply andb_true_iff in Ha as [Hx Ha]. now rewrite Hx, (IH Ha).
Qed.
Lemma span_all f a : forallb f a = true -> span f a = (a, []).
Proof.
  induction a as [|x a IH]; cbn; [reflexivity|]. intros Ha. apply andb_true_iff in Ha as [Hx Ha].
  now rewrite Hx, (IH Ha).
Qed.
Definition plain_name (n : str) : Prop := n <> [] /\ ~ In 91%N n.
Definition plain_attr (a : list (str * str)) : Prop :=
  match a with
  | [] => True
  | [(k, v)] => k <> [] /\ ~ In 61%N k /\ v <> [] /\ ~ In 10%N v
  | _ => False
  end.
Lemma forallb_not (c : N) s : ~ In c s -> forallb (fun x => negb (N.eqb x c)) s = true.
Proof.
  intros H. apply forallb_forall. intros x Hx. apply negb_true_iff, N.eqb_neq. intros ->. auto.
Qed.
Theorem C05_fragment : forall node_ok n a text cs tl frag,
  plain_name n -> plain_attr a -> node_ok n a = true ->
  node_to_tag_expression (Elem n a text cs tl) = Ok frag ->
  create_node node_ok frag = Ok (n, a).
Proof.
  intros node_ok n a text cs tl frag [Hn1 Hn2] Ha Hok H.
  apply (forallb_not 91) in Hn2.
  destruct a as [|[k v] [|]]; cbn [node_to_tag_expression] in H; try discriminate; injection H as <-.
  - unfold create_node, parse_tag_expression. rewrite span_all by exact Hn2.
    destruct n; [congruence|]. cbn [bind fst snd]. now rewrite Hok.
  - destruct Ha as (Hk1 & Hk2 & Hv1 & Hv2). apply (forallb_not 61) in Hk2.
    unfold create_node, parse_tag_expression.
    change (u "[@") with [91%N; 64%N]. cbn [app]. rewrite span_app by (exact Hn2 || reflexivity).
    destruct n; [congruence|].
    assert (E : parse_key_value (k ++ u "=""" ++ v ++ u """]") = Some (k, v)).
    { unfold parse_key_value. change (u "=""") with [61%N; 34%N]. cbn [app].
      rewrite span_app by (exact Hk2 || reflexivity). destruct k; [congruence|].
      change (u """]") with [34%N; 93%N]. rewrite rev_app_distr. cbn [rev app].
      rewrite rev_app_distr. cbn [rev app].
      destruct (rev v) as [|x xs] eqn:Er.
      { exfalso. apply Hv1. rewrite <- (rev_involutive v), Er. reflexivity. }
      assert (Hx : existsb (N.eqb 10) (x :: xs) = false).
      { rewrite <- Er. apply not_true_iff_false. intros Hx. apply existsb_exists in Hx as (y & Hy & Ey).
        apply N.eqb_eq in Ey. subst y. apply in_rev in Hy. auto. }
      rewrite Hx, <- Er, rev_involutive. reflexivity. }
    cbv beta iota zeta. change (k ++ 61%N :: 34%N :: v ++ u """]") with (k ++ u "=""" ++ v ++ u """]").
    rewrite E. cbn [bind fst snd]. now rewrite Hok.
Qed.

(* ---------------------------------------------------------------- *)
(** ** Examples *)
Definition mk (s : string) (t st : ostr) : tok := mkTok (u s) t st None None None.
Definition ex_wmapping : list (str * str) :=
  [(u "title", u "docTitle/titlePart"); (u "byline", u "byline"); (u "author", u "byline/docAuthor")].
Definition ex_wlines : list line :=
  [[mk "The" (Some (u "b-title")) None; mk " " None None; mk "title" (Some (u "i-title")) None; mk " " None None];
   [mk "cont" (Some (u "i-title")) None; mk " " None None;
    mk "by" (Some (u "b-byline")) None; mk " " None None;
    mk "Smith" (Some (u "i-byline")) (Some (u "b-author"));
    mk "." None None]].
Definition any_node : str -> list (str * str) -> bool := fun _ _ => true.
Definition ex_wtree : xml :=
  Elem (u "front") [] []
    [Elem (u "docTitle") [] []
       [Elem (u "titlePart") [] (u "The title") [Elem (u "lb") [] [] [] (u " cont")] []] (u " ");
     Elem (u "byline") [] (u "by ") [Elem (u "docAuthor") [] (u "Smith") [] []] (u ".")] [].
Definition ex_title_addr : addr := [(0, (u "docTitle", [])); (0, (u "titlePart", []))].
Definition ex_byline_addr : addr := [(1, (u "byline", []))].
Definition ex_W : list (list str * tok * addr) :=
  [([], mk "The" (Some (u "b-title")) None, ex_title_addr);
   ([], mk "title" (Some (u "i-title")) None, ex_title_addr);
   ([], mk "cont" (Some (u "i-title")) None, ex_title_addr);
   ([], mk "by" (Some (u "b-byline")) None, ex_byline_addr);
   ([], mk "Smith" (Some (u "i-byline")) (Some (u "b-author")), ex_byline_addr ++ [(0, (u "docAuthor", []))]);
   ([], mk "." None None, [])].
(** meets the hypotheses of C04_*, C05_located, C06_* *)
Example C04_ex :
  lines_to_tei ascii_space any_node ex_wmapping (u "front") ex_wlines = Ok ex_wtree /\
  layout ascii_space ex_wtree ex_wlines ex_W /\
  count_name (u "lb") ex_wtree = 1 /\
  (forall t, In t (concat ex_wlines) -> is_space ascii_space t = false -> no_lb any_node (required_path ex_wmapping t)).
Proof.
  split; [vm_compute; reflexivity|]. split; [|split; [vm_compute; reflexivity|]].
  - exists [EvTok (mk "The" (Some (u "b-title")) None) ex_title_addr; EvTok (mk " " None None) ex_title_addr;
            EvTok (mk "title" (Some (u "i-title")) None) ex_title_addr; EvLb ex_title_addr;
            EvTok (mk " " None None) ex_title_addr;
            EvTok (mk "cont" (Some (u "i-title")) None) ex_title_addr; EvTok (mk " " None None) [];
            EvTok (mk "by" (Some (u "b-byline")) None) ex_byline_addr; EvTok (mk " " None None) ex_byline_addr;
            EvTok (mk "Smith" (Some (u "i-byline")) (Some (u "b-author"))) (ex_byline_addr ++ [(0, (u "docAuthor", []))]);
            EvTok (mk "." None None) []].
    repeat split; vm_compute; reflexivity.
  - intros t Ht _. vm_compute in Ht.
    repeat (destruct Ht as [<-|Ht]; [vm_compute; repeat constructor; intros na H; injection H as <-; discriminate|]).
    destruct Ht.
Qed.
(** [C06_begin]: 'by'; [C06_begin_sub]: 'Smith'; [C06_continue], [C06_continue_sub]: 'cont' *)
Example C06_ex :
  begin (shown_tag (mk "by" (Some (u "b-byline")) None)) = true /\
  value (shown_tag (mk "by" (Some (u "b-byline")) None)) = Some (u "byline") /\
  begin (shown_sub_tag (mk "Smith" (Some (u "i-byline")) (Some (u "b-author")))) = true /\
  prefix (path_of ex_wmapping (u "byline")) (path_of ex_wmapping (u "author")) /\
  begin (shown_tag (mk "cont" (Some (u "i-title")) None)) = false.
Proof. repeat split; try reflexivity. exists [u "docAuthor"]. reflexivity. Qed.

(** the number of line breaks is wrong if a tag is mapped to [lb] *)
Theorem C04_breaks_refuted : exists mapping ls r,
  lines_to_tei ascii_space any_node mapping (u "front") ls = Ok r /\
  count_name (u "lb") r <> length ls - 1.
Proof.
  exists [(u "x", u "lb")], [[mk "a" (Some (u "x")) None]]. eexists. split; [vm_compute; reflexivity|].
  vm_compute. discriminate.
Qed.
(** Spaces at the end of a line are moved behind the line break: the text up to
    the line break is not the text of the first line. *)
Theorem C04_line_text_refuted : exists ls r,
  lines_to_tei ascii_space any_node [] (u "front") ls = Ok r /\
  ls = [[mk "a" None None; mk " " None None]; [mk "b" None None]] /\
  r = Elem (u "front") [] (u "a") [Elem (u "lb") [] [] [] (u " b")] [].
Proof. eexists _, _. split; [|split; reflexivity]. vm_compute. reflexivity. Qed.

(** A begin sub tag that is not below the main path is ignored for the location,
    but still ends the element of the main tag: consecutive words of the same
    entity end up in two elements. *)
Theorem C06_continue_refuted : exists mapping ls r W1 W2 t1 a1 t a v,
  lines_to_tei ascii_space any_node mapping (u "front") ls = Ok r /\
  layout ascii_space r ls (W1 ++ ([], t1, a1) :: ([], t, a) :: W2) /\
  value (shown_tag t1) = Some v /\ value (shown_tag t) = Some v /\ v <> [] /\
  begin (shown_tag t) = false /\
  let n := length (path_of mapping v) in firstn n a <> firstn n a1.
Proof.
  set (t1 := mk "a" (Some (u "b-title")) None). set (t := mk "b" (Some (u "i-title")) (Some (u "b-other"))).
  exists [(u "title", u "docTitle")], [[t1; mk " " None None; t]].
  exists (Elem (u "front") [] [] [Elem (u "docTitle") [] (u "a") [] (u " "); Elem (u "docTitle") [] (u "b") [] []] []).
  exists [], [], t1, [(0, (u "docTitle", []))], t, [(1, (u "docTitle", []))], (u "title").
  split; [vm_compute; reflexivity|]. split.
  - exists [EvTok t1 [(0, (u "docTitle", []))]; EvTok (mk " " None None) []; EvTok t [(1, (u "docTitle", []))]].
    repeat split; vm_compute; reflexivity.
  - repeat (split; [vm_compute; try reflexivity; discriminate|]). vm_compute. discriminate.
Qed.

(** An attribute value with a slash (or no attribute value) can be loaded, but not
    saved: the path is split inside the value. *)
Theorem C04_saves_refuted : exists e ls,
  new_document ascii_space ascii_word ascii_upper ascii_lower [] true [e] = Ok ls /\
  lines_to_tei ascii_space any_node [] (u "front") ls = Err ValueError.
Proof.
  exists (Elem (u "front") [] [] [Elem (u "note") [(u "type", u "a/b")] (u "x") [] []] []).
  eexists. split; vm_compute; reflexivity.
Qed.

Print Assumptions C04_saves_iff.
Print Assumptions C04_text.
Print Assumptions C04_lines.
Print Assumptions C04_breaks.
Print Assumptions C04_layout_exists.
Print Assumptions C04_layout_unique.
Print Assumptions C05_located.
Print Assumptions C05_split_join.
Print Assumptions C05_split_no_slash.
Print Assumptions C05_fragment.
Print Assumptions C06_contiguous.
Print Assumptions C06_begin.
Print Assumptions C06_begin_sub.
Print Assumptions C06_continue.
Print Assumptions C06_continue_sub.
Print Assumptions C55_common_path.
Print Assumptions C55_starts_with.
