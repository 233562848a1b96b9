(** C08, C09, C10: saving the whole tree, removing untagged text, preserved tags *)
From Verif Require Import Base ModelTags ProofTags ModelTokenize ModelXml ProofXml ModelTei ModelTeiDoc
  SpecTeiRead SpecTeiWrite SpecTeiDoc ProofTeiDoc ProofTeiRoundtrip PropTeiRead PropTeiWrite.

(* ---------------------------------------------------------------- *)
(** ** C08: which part of the tree is replaced by saving *)

(** Saving an annotated document replaces the first container, and nothing else.
    The new container has the text of *all* containers (and the text following
    each of them); the others are as before. *)
Theorem C08_save : forall sp wd up lo node_ok mapping preserve path root d d' root',
  path <> [] -> named root = true ->
  load_document sp wd up lo mapping preserve path root = Ok d ->
  same_layout d d' ->
  updated_tei sp node_ok mapping path root d' = Ok root' ->
  exists ctx c c' cs,
    find_all path root = c :: cs /\ find_all path root' = c' :: cs /\
    root = plug ctx c /\ root' = plug ctx c' /\
    content c' = flat_map full_text (c :: cs) /\ xtail c' = [].
Proof.
  intros sp wd up lo node_ok m p path root d d' root' Hp Hn Hl Hs H.
  unfold updated_tei in H. destruct (find_all path root) as [|c cs] eqn:E.
  { rewrite replace_first_none in H by assumption. discriminate. }
  destruct (find_all_plug_first path root c cs E) as (ctx & E1 & _ & E3 & E4).
  rewrite E3 in H. destruct (lines_to_tei sp node_ok m (elem_name c) d') as [c'|] eqn:Er; [|discriminate].
  cbn [bind] in H. injection H as <-.
  pose proof Er as Hc. apply lines_to_tei_fine in Hc as (_ & text & ks & Hc).
  exists ctx, c, c', cs. split; [reflexivity|]. rewrite Hc. split; [apply E4; auto|].
  split; [exact E1|]. split; [reflexivity|]. split; [|reflexivity].
  rewrite <- Hc, (C04_text _ _ _ _ _ _ Er). rewrite <- (same_layout_text d d' Hs).
  unfold load_document in Hl. apply C03_text in Hl; [|now apply find_all_named].
  rewrite Hl, E. reflexivity.
Qed.

(** With a single container the text of the whole document is unchanged. *)
Theorem C08_single : forall sp wd up lo node_ok mapping preserve path root d d' root' c,
  path <> [] -> named root = true ->
  find_all path root = [c] ->
  load_document sp wd up lo mapping preserve path root = Ok d ->
  same_layout d d' ->
  updated_tei sp node_ok mapping path root d' = Ok root' ->
  full_text root' = full_text root.
Proof.
  intros sp wd up lo node_ok m p path root d d' root' c Hp Hn Hc Hl Hs H.
  destruct (C08_save _ _ _ _ _ _ _ _ _ _ _ _ Hp Hn Hl Hs H) as (ctx & c0 & c' & cs & E1 & _ & E3 & E4 & E5 & E6).
  rewrite Hc in E1. injection E1 as <- <-. cbn [flat_map] in E5. rewrite app_nil_r in E5.
  destruct (full_text_plug ctx) as (pre & post & Ht). rewrite E3, E4, !Ht. f_equal. f_equal.
  unfold full_text at 1. now rewrite E5, E6, app_nil_r.
Qed.

(** With several containers the text of all but the first is in the saved
    document twice: the text grows by exactly that amount. *)
Theorem C08_duplicates : forall sp wd up lo node_ok mapping preserve path root d d' root' c cs,
  path <> [] -> named root = true ->
  find_all path root = c :: cs ->
  load_document sp wd up lo mapping preserve path root = Ok d ->
  same_layout d d' ->
  updated_tei sp node_ok mapping path root d' = Ok root' ->
  length (full_text root') = length (full_text root) + length (flat_map full_text cs).
Proof.
  intros sp wd up lo node_ok m p path root d d' root' c cs0 Hp Hn Hc Hl Hs H.
  destruct (C08_save _ _ _ _ _ _ _ _ _ _ _ _ Hp Hn Hl Hs H) as (ctx & c0 & c' & cs & E1 & _ & E3 & E4 & E5 & E6).
  rewrite Hc in E1. injection E1 as <- <-.
  destruct (full_text_plug ctx) as (pre & post & Ht). rewrite E3, E4, !Ht.
  unfold full_text at 1. rewrite E5, E6. cbn [flat_map]. rewrite !app_length. cbn [length]. lia.
Qed.

(** Without a container a document can be loaded (it has no lines), but not saved. *)
Theorem C08_no_container : forall sp wd up lo node_ok mapping preserve path root d,
  find_all path root = [] ->
  load_document sp wd up lo mapping preserve path root = Ok [] /\
  updated_tei sp node_ok mapping path root d = Err RuntimeError.
Proof.
  intros. unfold load_document, updated_tei. rewrite H, replace_first_none by assumption.
  split; reflexivity.
Qed.

Definition ex_authors : xml :=
  Elem (u "TEI") [] []
    [Elem (u "author") [] (u "A ") [Elem (u "affiliation") [] (u "Uni") [] (u ".")] (u " ");
     Elem (u "author") [] (u "B") [] []] [].
Definition ex_author_mapping : list (str * str) := [(u "aff", u "affiliation")].
Definition ex_author_doc : doc :=
  match load_document ascii_space ascii_word ascii_upper ascii_lower ex_author_mapping true [u "author"] ex_authors
  with Ok d => d | Err _ => [] end.
(** two containers (the affiliation model): the second author's text is in the
    result twice, without any annotation *)
Theorem C08_refuted : exists mapping path root d root',
  named root = true /\ length (find_all path root) = 2 /\
  load_document ascii_space ascii_word ascii_upper ascii_lower mapping true path root = Ok d /\
  updated_tei ascii_space any_node mapping path root d = Ok root' /\
  content root = u "A Uni. B" /\ content root' = u "A Uni. BB".
Proof.
  exists ex_author_mapping, [u "author"], ex_authors, ex_author_doc. eexists.
  repeat (split; [vm_compute; reflexivity|]). split; vm_compute; reflexivity.
Qed.
(** a document meeting the hypotheses of [C08_single]: two levels, text before,
    behind and after the container, an annotated copy *)
Definition ex_tei : xml :=
  Elem (u "tei") [] (u "x")
    [Elem (u "text") [] []
       [Elem (u "front") [(u "id", u "1")] (u "A title") [Elem (u "lb") [] [] [] (u "B")] (u " y");
        Elem (u "body") [] (u "Z") [] []] (u "w")] [].
Example C08_ex : exists d root',
  load_document ascii_space ascii_word ascii_upper ascii_lower [] true [u "text"; u "front"] ex_tei = Ok d /\
  updated_tei ascii_space any_node [(u "title", u "docTitle/titlePart")] [u "text"; u "front"] ex_tei
    (set_tag ascii_space LMain (0, 2) (Some (u "b-title")) d) = Ok root' /\
  root' = Elem (u "tei") [] (u "x")
    [Elem (u "text") [] []
       [Elem (u "front") [] (u "A")
          [Elem (u "docTitle") [] (u " ")
            [Elem (u "titlePart") [] (u "title") [Elem (u "lb") [] [] [] []] []] (u "B y")] [];
        Elem (u "body") [] (u "Z") [] []] (u "w")] [].
Proof. eexists _, _. split; [vm_compute; reflexivity|]. split; vm_compute; reflexivity. Qed.

(* ---------------------------------------------------------------- *)
(** ** C09: removing untagged text *)

(** All lines of the result are the same: the surviving tokens of the whole
    document. *)
Theorem C09_lines : forall sp d, exists n,
  remove_all_untagged sp d = repeat (survivors sp (concat d)) n /\ n <= length d /\
  (survivors sp (concat d) <> [] -> 0 < n).
Proof.
  intros sp d. exists (stages sp [] d). split; [apply remove_all_untagged_eq|]. split.
  - generalize (@nil tok). induction d as [|l d IH]; intros b; cbn [stages length]; [lia|].
    specialize (IH (b ++ l)). destruct (nonempty _); lia.
  - intros H. apply stages_pos.
    + left. exact H.
    + intros ->. apply H. reflexivity.
Qed.

(** Exactly the tagged words survive: no untagged word is left, every tagged one
    is. *)
Theorem C09_words : forall sp d t,
  is_word sp t = true ->
  (In t (concat (remove_all_untagged sp d)) <-> In t (concat d) /\ tagged t = true).
Proof.
  intros sp d t Ht. destruct (C09_lines sp d) as (n & -> & _ & Hn).
  assert (E : In t (survivors sp (concat d)) <-> In t (concat d) /\ tagged t = true).
  { transitivity (In t (filter (is_word sp) (survivors sp (concat d)))).
    - rewrite filter_In. tauto.
    - rewrite survivors_words, filter_In, Ht. cbn [andb]. tauto. }
  rewrite <- E. split.
  - intros H. apply in_concat in H as (l & Hl & H). apply repeat_spec in Hl. now subst l.
  - intros H. apply in_concat. exists (survivors sp (concat d)). split; [|exact H].
    destruct n as [|n]; [|now left]. exfalso. apply (Nat.lt_irrefl 0). apply Hn. now destruct (survivors sp (concat d)).
Qed.

(** A document of one line keeps its tagged words, each once and in order; spaces
    stay with the word before them. *)
Theorem C09_one_line : forall sp l,
  concat (remove_all_untagged sp [l]) = survivors sp l /\
  filter (is_word sp) (concat (remove_all_untagged sp [l]))
  = filter (fun t => is_word sp t && tagged t) l.
Proof.
  intros sp l.
  assert (E : concat (remove_all_untagged sp [l]) = survivors sp l).
  { rewrite remove_all_untagged_eq, stages_one. cbn [concat]. rewrite app_nil_r.
    destruct (survivors sp l) as [|x r]; [reflexivity|]. cbn [nonempty repeat concat]. apply app_nil_r. }
  split; [exact E|]. rewrite E. apply survivors_words.
Qed.

(** With more lines, every tagged word occurs once per line of the result, i.e. the
    text is repeated. *)
Theorem C09_copies : forall sp d,
  filter (is_word sp) (concat (remove_all_untagged sp d)) =
  concat (repeat (filter (fun t => is_word sp t && tagged t) (concat d)) (length (remove_all_untagged sp d))).
Proof.
  intros sp d. destruct (C09_lines sp d) as (n & -> & _). rewrite repeat_length.
  rewrite <- survivors_words. induction n as [|n IH]; [reflexivity|].
  cbn [repeat concat]. now rewrite filter_app, IH.
Qed.
Definition ex_untagged : doc :=
  [[mk "a" (Some (u "b-x")) None; mk " " None None; mk "b" None None; mk " " None None];
   [mk "c" (Some (u "b-y")) None; mk "d" None None; mk " " None None]].
Theorem C09_refuted : exists d,
  filter (is_word ascii_space) (concat (remove_all_untagged ascii_space d)) <>
  filter (fun t => is_word ascii_space t && tagged t) (concat d).
Proof. exists ex_untagged. vm_compute. discriminate. Qed.
Example C09_ex : map (map tx) (remove_all_untagged ascii_space ex_untagged)
  = [[u "a"; u " "; u "c"]; [u "a"; u " "; u "c"]] /\
  map (map tx) (remove_all_untagged ascii_space [concat ex_untagged]) = [[u "a"; u " "; u "c"]].
Proof. split; vm_compute; reflexivity. Qed.
(** Text that only shows a remembered tag counts as untagged. *)
Theorem C09_remembered_refuted : exists l t,
  In t l /\ shown_tag t = Some (u "b-x") /\ remove_all_untagged ascii_space [l] = [].
Proof.
  exists [mkTok (u "a") None None (Some (u "b-x")) None None]. eexists.
  split; [left; reflexivity|]. split; vm_compute; reflexivity.
Qed.

(* ---------------------------------------------------------------- *)
(** ** C10: preserved tags *)

(** nothing is remembered yet while reading *)
Definition new_tok (t : tok) : Prop := ptag t = None /\ psub t = None.
Definition new_buf (b : buf) : Prop := Forall (Forall new_tok) (b_lines b) /\ Forall new_tok (b_toks b).
Lemma new_append sp wd up lo b s : new_buf b -> new_buf (append_text sp wd up lo b s).
Proof.
  unfold append_text. destruct s as [|c s]; [auto|]. generalize (tokenize_text wd up lo (c :: s)) as ts.
  intros ts. revert b. induction ts as [|t ts IH]; intros b Hb; [exact Hb|]. apply IH.
  destruct Hb as [H1 H2]. split; [exact H1|]. cbn [append_token b_toks]. apply Forall_app. split.
  - clear -H2. generalize (if blank sp t then t else []) as w. intros w.
    induction H2 as [|x l Hx Hl IH]; [constructor|]. destruct l as [|y l].
    + cbn. constructor; [exact Hx|constructor].
    + change (set_last_ws w (x :: y :: l)) with (x :: set_last_ws w (y :: l)). constructor; auto.
  - constructor; [split; reflexivity|constructor].
Qed.
Lemma new_flush b : new_buf b -> new_buf (flush b).
Proof.
  intros [H1 H2]. split; cbn [flush b_lines b_toks]; [|constructor].
  apply Forall_app. auto.
Qed.
Lemma new_read sp wd up lo rp : forall e path b b', new_buf b ->
  read_elem sp wd up lo rp e path b = Ok b' -> new_buf b'.
Proof.
  induction e as [n a text cs tl IH|tl] using xml_ind'; intros path b b' Hb H; [|discriminate].
  cbn [read_elem] in H.
  cbv zeta in H.
  match type of H with context [append_text _ _ _ _ ?x text] => set (b1 := x) in * end.
  assert (H1 : new_buf b1).
  { unfold b1. destruct (is_tagging _ _ _ _ _); [|exact Hb]. destruct (truthy _); exact Hb. }
  apply (new_append sp wd up lo b1 text) in H1. set (b2 := append_text sp wd up lo b1 text) in *.
  clearbody b2. match type of H with bind ?x _ = _ => destruct x as [b3|] eqn:E; [|discriminate] end.
  cbn [bind] in H. injection H as <-. apply new_append.
  assert (H3 : new_buf b3); [|destruct (truthy _); exact H3].
  revert b2 H1 E. induction IH as [|c cs Hc Hcs IHc]; intros b2 H1 E.
  - injection E as <-. exact H1.
  - destruct (node_to_tag_expression c) as [fr|]; [|discriminate]. cbn [bind] in E.
    match type of E with bind ?x _ = _ => destruct x as [b4|] eqn:E4; [|discriminate] end. cbn [bind] in E.
    apply (IHc b4); [|exact E]. eapply Hc; [|exact E4]. destruct (is_lb c); [now apply new_flush|exact H1].
Qed.
Lemma new_containers sp wd up lo rp es ls : read_containers sp wd up lo rp es = Ok ls ->
  Forall (Forall new_tok) ls.
Proof.
  unfold read_containers. intros H.
  match type of H with bind ?x _ = _ => destruct x as [b|] eqn:E; [|discriminate] end. cbn [bind] in H.
  injection H as <-. assert (H0 : new_buf empty_buf) by (split; constructor).
  enough (H1 : new_buf b) by apply H1. revert E H0. generalize empty_buf.
  induction es as [|e es IH]; intros b0 E H0; cbn [foldM] in E.
  - injection E as <-. exact H0.
  - destruct (read_elem sp wd up lo rp e [] b0) as [b1|] eqn:E1; [|discriminate]. cbn [bind] in E.
    eapply IH; [exact E|]. apply new_read in E1; [|exact H0].
    destruct (b_toks b1); [exact E1|now apply new_flush].
Qed.

(** Loading remembers all tags, or none, and leaves none set (which tags are
    remembered is stated by C57). *)
Theorem C10_loaded : forall sp wd up lo mapping preserve es d t,
  new_document sp wd up lo mapping preserve es = Ok d -> In t (concat d) ->
  (forall lv, given lv t = None) /\
  (preserve = false -> forall lv, remembered lv t = None).
Proof.
  intros sp wd up lo m p es d t H Ht. apply new_document_lines in H as (ls0 & H & ->).
  apply new_containers in H. rewrite <- concat_map in Ht. apply in_map_iff in Ht as (t0 & <- & Ht).
  split; [intros [|]; reflexivity|]. intros ->.
  apply in_concat in Ht as (l & Hl & Ht). rewrite Forall_forall in H. specialize (H l Hl).
  rewrite Forall_forall in H. destruct (H t0 Ht) as [H1 H2]. intros [|]; assumption.
Qed.

(** Before annotation, exactly the tags of the fields to be annotated (or all, or
    all but those of the fields to be kept always) are forgotten, on both levels
    separately; everything else is left as it is. *)
Lemma omem_nonempty v l : nonempty l && omem v l = omem v l.
Proof. destruct l; [destruct v|]; reflexivity. Qed.
Lemma mem_filter f g l : mem f (filter g l) = mem f l && g f.
Proof.
  destruct (mem f (filter g l)) eqn:E.
  - apply mem_In, filter_In in E as [E1 E2]. symmetry. rewrite andb_true_iff, mem_In. auto.
  - destruct (mem f l && g f) eqn:E2; [|reflexivity]. apply mem_nIn in E. exfalso. apply E.
    apply filter_In. now rewrite andb_true_iff, mem_In in E2.
Qed.
Lemma map_tok_shown fn lv t :
  (forall o, fn o = o \/ fn o = None) ->
  let t' := map_token_tag fn lv t in
  shown lv t' = fn (shown lv t) /\
  (fn (shown lv t) = shown lv t -> t' = t) /\
  same_text t t' /\
  (forall lv', lv' <> lv -> given lv' t' = given lv' t /\ remembered lv' t' = remembered lv' t).
Proof.
  intros Hf t'. unfold t', map_token_tag. cbv zeta. rewrite shown_or.
  destruct (ostreq (fn (shown lv t)) (shown lv t)) eqn:E.
  - apply ostreq_true in E. rewrite E. repeat split; auto.
  - apply ostreq_false in E. destruct (Hf (shown lv t)) as [E1|E1]; [congruence|]. rewrite E1.
    split; [destruct lv; reflexivity|]. split; [congruence|]. split; [destruct lv; split; reflexivity|].
    intros lv' Hne. destruct lv, lv'; try congruence; split; reflexivity.
Qed.

Theorem C10_prepared : forall preserve fields always preserve_sub dropped d i j t,
  tok_at d (i, j) = Some t ->
  exists t', tok_at (prepare_tags preserve fields always preserve_sub dropped d) (i, j) = Some t' /\
    same_text t t' /\
    shown LMain t' = (if stays preserve fields always (value (shown LMain t)) then shown LMain t else None) /\
    shown LSub t' = (if sub_stays preserve_sub dropped (value (shown LSub t)) then shown LSub t else None) /\
    (shown LMain t' = shown LMain t -> given LMain t' = given LMain t /\ remembered LMain t' = remembered LMain t) /\
    (shown LSub t' = shown LSub t -> given LSub t' = given LSub t /\ remembered LSub t' = remembered LSub t).
Proof.
  intros pr fields always prs dropped d i j t Ht.
  set (fm := if pr || nonempty always
             then preserve_tag_fn always (filter (fun f => negb (mem f always)) fields)
             else fun _ => None).
  set (fs := if negb prs then (fun _ => None)
             else if nonempty dropped then preserve_tag_fn [] dropped else fun o => o).
  exists (map_token_tag fs LSub (map_token_tag fm LMain t)).
  assert (Hp : forall inc exc o, preserve_tag_fn inc exc o = o \/ preserve_tag_fn inc exc o = None).
  { intros. unfold preserve_tag_fn. destruct (_ && _); auto. destruct (_ && _); auto. }
  assert (Hm : forall o, fm o = o \/ fm o = None) by (intros o; unfold fm; destruct (_ || _); auto).
  assert (Hs : forall o, fs o = o \/ fs o = None)
    by (intros o; unfold fs; destruct prs; cbn [negb]; auto; destruct (nonempty dropped); auto).
  destruct (map_tok_shown fm LMain t Hm) as (A1 & A2 & A3 & A4).
  destruct (map_tok_shown fs LSub (map_token_tag fm LMain t) Hs) as (B1 & B2 & B3 & B4).
  set (t1 := map_token_tag fm LMain t) in *. set (t2 := map_token_tag fs LSub t1) in *.
  assert (C1 : forall lv, lv = LSub -> shown lv t1 = shown lv t).
  { intros lv ->. destruct (A4 LSub ltac:(discriminate)) as [E1 E2].
    unfold shown, shown_sub_tag. cbn in E1, E2. now rewrite E1, E2. }
  assert (C2 : shown LMain t2 = shown LMain t1).
  { destruct (B4 LMain ltac:(discriminate)) as [E1 E2].
    unfold shown, shown_tag. cbn in E1, E2. now rewrite E1, E2. }
  split.
  { unfold prepare_tags. fold fm.
    assert (E : (if pr || nonempty always
       then map_token_tags (preserve_tag_fn always (filter (fun f => negb (mem f always)) fields)) LMain d
       else map_token_tags (fun _ => None) LMain d) = map_token_tags fm LMain d)
      by (unfold fm; destruct (_ || _); reflexivity).
    rewrite E.
    assert (E2 : (if negb prs then map_token_tags (fun _ => None) LSub (map_token_tags fm LMain d)
       else if nonempty dropped then map_token_tags (preserve_tag_fn [] dropped) LSub (map_token_tags fm LMain d)
            else map_token_tags fm LMain d) = map (map (map_token_tag fs LSub)) (map_token_tags fm LMain d)).
    { unfold fs. destruct (negb prs); [reflexivity|]. destruct (nonempty dropped); [reflexivity|].
      rewrite <- (map_id (map_token_tags fm LMain d)) at 1. apply map_ext. intros l.
      rewrite <- (map_id l) at 1. apply map_ext. intros x. unfold map_token_tag.
      destruct (ostreq _ _) eqn:E3; [reflexivity|]. apply ostreq_false in E3. congruence. }
    rewrite E2. unfold map_token_tags, tok_at, doc, line in *. cbn [fst snd] in *.
    rewrite !nth_error_map. destruct (nth_error d i); [|discriminate]. cbn [option_map].
    rewrite !nth_error_map, Ht. reflexivity. }
  split; [eapply same_text_trans; eassumption|].
  assert (Fm : fm (shown LMain t) = if stays pr fields always (value (shown LMain t)) then shown LMain t else None).
  { unfold fm, stays. destruct (pr || nonempty always); [|reflexivity].
    unfold preserve_tag_fn. change strip_tag_prefix with value. rewrite omem_nonempty.
    destruct (value (shown LMain t)) as [f|] eqn:E; cbn [omem].
    - rewrite mem_filter. destruct (mem f always), (mem f fields), (nonempty always); reflexivity.
    - assert (shown LMain t = None) as ->.
      { unfold value in E. destruct (shown LMain t) as [[|]|]; [discriminate| |reflexivity].
        cbn [split_tag_prefix] in E. destruct (starts_with B_PREFIX _); [discriminate|].
        destruct (starts_with I_PREFIX _); discriminate. }
      cbn [negb andb]. destruct (nonempty always); reflexivity. }
  assert (Fs : fs (shown LSub t) = if sub_stays prs dropped (value (shown LSub t)) then shown LSub t else None).
  { unfold fs, sub_stays. destruct prs; cbn [negb andb]; [|reflexivity].
    destruct dropped as [|x dropped]; cbn [nonempty].
    - destruct (value (shown LSub t)); reflexivity.
    - unfold preserve_tag_fn. change strip_tag_prefix with value. rewrite omem_nonempty. cbn [nonempty andb].
      destruct (value (shown LSub t)); cbn [omem]; [|reflexivity]. now destruct (mem _ _). }
  rewrite C2, A1, B1, (C1 LSub eq_refl), Fm, Fs. split; [reflexivity|]. split; [reflexivity|].
  rewrite <- Fm, <- Fs. split; intros E.
  - destruct (B4 LMain ltac:(discriminate)) as [-> ->]. rewrite A2 by exact E. auto.
  - rewrite B2 by (rewrite (C1 LSub eq_refl); exact E). destruct (A4 LSub ltac:(discriminate)) as [-> ->]. auto.
Qed.

(** The fields to be kept in any case get their remembered tag as given tag, so it
    takes part in the annotation as any other; nothing else changes. *)
Lemma apply_at_keeps sp fields l j k x : nth_error l k = Some x ->
  nth_error (apply_preserved_at sp fields l j) k =
  Some (if Nat.eqb j k && omem (value (shown LMain x)) fields
        then set_tag_only LMain (shown LMain x) x else x).
Proof.
  intros Hx. unfold apply_preserved_at. destruct (nth_error l j) as [t|] eqn:Ej.
  2:{ destruct (Nat.eqb_spec j k); [congruence|exact Hx]. }
  rewrite shown_or. change strip_tag_prefix with value.
  destruct (omem (value (shown LMain t)) fields) eqn:E.
  - rewrite (set_tag_line_at sp LMain j _ l t k x Ej Hx). unfold beside, changes.
    assert (Hr : ostreq (value (shown LMain t)) (value (shown LMain t)) = true) by now apply ostreq_true.
    rewrite Hr, andb_false_r. rewrite (Nat.eqb_sym k j). destruct (Nat.eqb_spec j k) as [->|_]; [|reflexivity].
    assert (t = x) by congruence. subst t. now rewrite E.
  - destruct (Nat.eqb_spec j k) as [->|_]; [|exact Hx].
    assert (t = x) by congruence. subst t. now rewrite E.
Qed.
Theorem C10_always : forall sp fields d i j t,
  tok_at d (i, j) = Some t ->
  tok_at (apply_preserved_fields sp fields d) (i, j) =
  Some (if omem (value (shown LMain t)) fields
        then mkTok (tx t) (shown LMain t) (sub t) (ptag t) (psub t) (ws t) else t).
Proof.
  intros sp fields d i j t Ht. unfold tok_at, apply_preserved_fields in *. cbn [fst snd] in *.
  rewrite nth_error_map. destruct (nth_error d i) as [l|]; [|discriminate]. cbn [option_map].
  unfold apply_preserved_line.
  assert (G : forall n l, nth_error l j = Some t -> j < n -> nth_error (fold_left (apply_preserved_at sp fields) (seq 0 n) l) j
    = Some (if omem (value (shown LMain t)) fields then set_tag_only LMain (shown LMain t) t else t)).
  { clear. intros n l Hl Hn.
    assert (E : seq 0 n = seq 0 j ++ j :: seq (S j) (n - S j)).
    { replace n with (j + S (n - S j)) at 1 by lia. rewrite seq_app. reflexivity. }
    rewrite E, fold_left_app. cbn [fold_left].
    assert (K : forall js l x, ~ In j js -> nth_error l j = Some x ->
      nth_error (fold_left (apply_preserved_at sp fields) js l) j = Some x).
    { clear. induction js as [|a js IH]; intros l x Hj Hx; [exact Hx|]. cbn [fold_left]. apply IH.
      - intros H. apply Hj. now right.
      - rewrite (apply_at_keeps sp fields l a j x Hx). destruct (Nat.eqb_spec a j) as [->|_]; [|reflexivity].
        exfalso. apply Hj. now left. }
    apply K; [rewrite in_seq; lia|].
    rewrite (apply_at_keeps sp fields _ j j t), Nat.eqb_refl; [reflexivity|].
    apply K; [rewrite in_seq; lia|exact Hl]. }
  apply G; [exact Ht|]. apply nth_error_Some. congruence.
Qed.
(** The document an annotator gets: what is shown stays or goes as for [C10_prepared], and the tags
    of fields that are always preserved are given, not only remembered. *)
Theorem C10_document : forall sp always preserve fields preserve_sub dropped d i j t,
  tok_at d (i, j) = Some t ->
  exists t', tok_at (prepare_document sp always preserve fields preserve_sub dropped d) (i, j) = Some t' /\
    same_text t t' /\
    shown LMain t' = (if stays preserve fields always (value (shown LMain t)) then shown LMain t else None) /\
    shown LSub t' = (if sub_stays preserve_sub dropped (value (shown LSub t)) then shown LSub t else None) /\
    (omem (value (shown LMain t)) always = true -> given LMain t' = shown LMain t).
Proof.
  intros sp always pr fields prs dropped d i j t Ht. unfold prepare_document.
  set (t1 := if omem (value (shown LMain t)) always then mkTok (tx t) (shown LMain t) (sub t) (ptag t) (psub t) (ws t) else t).
  assert (H1 : tok_at (if nonempty always then apply_preserved_fields sp always d else d) (i, j) = Some t1).
  { destruct always as [|f always]; [|now apply C10_always]. cbn [nonempty]. rewrite Ht. unfold t1. destruct (value (shown LMain t)); reflexivity. }
  assert (S1 : same_text t t1) by (unfold t1; destruct (omem _ _); split; reflexivity).
  assert (M1 : shown LMain t1 = shown LMain t).
  { unfold t1. destruct (omem _ _); [|reflexivity]. unfold shown, shown_tag, oor. cbn [tag ptag]. destruct (tag t) as [[|? ?]|]; cbn; try reflexivity; now destruct (ptag t) as [[|? ?]|]. }
  assert (M2 : shown LSub t1 = shown LSub t) by (unfold t1; destruct (omem _ _); reflexivity).
  destruct (C10_prepared pr fields always prs dropped _ i j t1 H1) as (t' & P1 & P2 & P3 & P4 & P5 & _). exists t'. split; [exact P1|].
  split; [eapply same_text_trans; eassumption|]. rewrite M1 in P3, P5. rewrite M2 in P4. split; [exact P3|]. split; [exact P4|].
  intros Ho. assert (St : stays pr fields always (value (shown LMain t)) = true).
  { unfold stays. destruct (value (shown LMain t)) as [v|]; [|discriminate]. cbn [omem] in *. rewrite Ho.
    destruct always; [discriminate|]. cbn [nonempty]. now rewrite orb_true_r. }
  rewrite St in P3. destruct (P5 P3) as [-> _]. unfold t1. now rewrite Ho.
Qed.

(** What assigning tags does.  The given tag of a token is the last one assigned
    to it: a newly set tag wins. *)
Theorem C10_last_set : forall sp ops d ij t lv,
  tok_at d ij = Some t ->
  exists t', tok_at (run sp ops d) ij = Some t' /\
    given lv t' = match last_set lv ij ops with Some v => v | None => given lv t end.
Proof.
  intros sp ops d ij t lv. revert t. induction ops as [|o ops IH] using rev_ind; intros t Ht.
  - exists t. split; [exact Ht|reflexivity].
  - destruct (IH t Ht) as (t1 & E1 & E2). unfold run in *. rewrite fold_left_app. cbn [fold_left].
    destruct o as [[lv' kl] v]. cbn [fst snd].
    destruct (tok_at_set sp lv' kl v _ ij t1 E1) as (t2 & F1 & _ & F3 & _).
    exists t2. split; [exact F1|]. rewrite F3, E2. unfold last_set. rewrite rev_app_distr. cbn [rev app find].
    unfold op_at at 2. cbn [fst snd].
    fold (lv_eqb lv' lv). rewrite <- andb_assoc.
    destruct (lv_eqb lv' lv && _); reflexivity.
Qed.
Corollary C10_new_wins : forall sp ops d ij t lv v,
  tok_at d ij = Some t -> last_set lv ij ops = Some (Some v) -> v <> [] ->
  exists t', tok_at (run sp ops d) ij = Some t' /\ shown lv t' = Some v.
Proof.
  intros sp ops d ij t lv v Ht Hl Hv. destruct (C10_last_set sp ops d ij t lv Ht) as (t' & E1 & E2).
  exists t'. split; [exact E1|]. rewrite Hl in E2.
  destruct lv; unfold shown, shown_tag, shown_sub_tag, oor; cbn [given] in E2; rewrite E2;
    destruct v; (congruence || reflexivity).
Qed.

(** A token shows its remembered tag as long as no tag is assigned to it, and none
    to a word on the same line that has a remembered tag of the same value. *)
Theorem C10_fall_back : forall sp ops d ij t lv,
  tok_at d ij = Some t ->
  last_set lv ij ops = None ->
  (forall lv' kl v x, In (lv', kl, v) ops -> tok_at d kl = Some x -> fst kl = fst ij ->
     (lv' = lv \/ lv' = LMain) -> is_word sp x = true ->
     truthy (value (remembered lv x)) = true -> value (remembered lv x) <> value (remembered lv t)) ->
  exists t', tok_at (run sp ops d) ij = Some t' /\ shown lv t' = shown lv t.
Proof.
  intros sp ops d ij t lv Ht Hl Hc.
  enough (G : exists t', tok_at (run sp ops d) ij = Some t' /\ given lv t' = given lv t /\ remembered lv t' = remembered lv t).
  { destruct G as (t' & G1 & G2 & G3). exists t'. split; [exact G1|].
    destruct lv; unfold shown, shown_tag, shown_sub_tag, oor; cbn [given remembered] in *; now rewrite G2, G3. }
  revert Hl Hc. induction ops as [|o ops IH] using rev_ind; intros Hl Hc; [exists t; auto|].
  unfold last_set in Hl. rewrite rev_app_distr in Hl. cbn [rev app find] in Hl.
  destruct (op_at lv ij o) eqn:Eo; [discriminate|].
  destruct IH as (t1 & E1 & E2 & E3).
  { exact Hl. }
  { intros lv' kl v x Hin. apply (Hc lv' kl v x). apply in_or_app. now left. }
  unfold run in *. rewrite fold_left_app. cbn [fold_left]. destruct o as [[lv' kl] v]. cbn [fst snd].
  destruct (tok_at_set sp lv' kl v _ ij t1 E1) as (t2 & F1 & _ & F3 & F4).
  exists t2. split; [exact F1|]. split.
  - rewrite F3, E2. unfold op_at in Eo. cbn [fst snd] in Eo. fold (lv_eqb lv' lv) in Eo.
    rewrite andb_assoc, Eo. reflexivity.
  - destruct (F4 lv) as [G|(y & G1 & G2 & G3 & G4 & G5 & G6 & G7)]; [congruence|]. exfalso.
    assert (Hy : exists x, tok_at d kl = Some x /\ is_word sp x = is_word sp y /\
              (remembered lv y = remembered lv x \/ remembered lv y = None)).
    { clear -G1. fold (run sp ops d) in G1. revert y G1. induction ops as [|o ops IH] using rev_ind; intros y G1.
      - exists y. auto.
      - unfold run in G1. rewrite fold_left_app in G1. cbn [fold_left] in G1. fold (run sp ops d) in G1.
        destruct (tok_at (run sp ops d) kl) as [y0|] eqn:E0.
        + destruct (IH y0 eq_refl) as (x & H1 & H2 & H3). exists x. split; [exact H1|].
          destruct o as [[l1 k1] v1]. cbn [fst snd] in G1.
          destruct (tok_at_set sp l1 k1 v1 _ kl y0 E0) as (y1 & K1 & [K2 _] & _ & K4).
          assert (y1 = y) by (enough (Some y1 = Some y) by congruence; rewrite <- K1; exact G1). subst y1. unfold is_word, is_space in *. rewrite <- K2. split; [exact H2|].
          destruct (K4 lv) as [K|(z & _ & _ & _ & _ & K & _)]; [|auto]. rewrite K. exact H3.
        + exfalso. pose proof (set_tag_layout sp (fst (fst o)) (snd (fst o)) (snd o) (run sp ops d)) as L.
          assert (E : tok_at (set_tag sp (fst (fst o)) (snd (fst o)) (snd o) (run sp ops d)) kl = None).
          { unfold tok_at in *. clear -L E0. set (d2 := set_tag _ _ _ _ _) in *. clearbody d2.
            revert d2 L E0. generalize (run sp ops d) as d1. destruct kl as [k m]. cbn [fst snd].
            intros d1 d2 L. revert k. induction L as [|l1 l2 d1 d2 Hl L IHL]; intros k E0; [now destruct k|].
            destruct k as [|k]; [|exact (IHL k E0)]. cbn [nth_error] in *.
            apply nth_error_None in E0. apply nth_error_None.
            assert (E : length l1 = length l2) by (clear -Hl; induction Hl; cbn; congruence).
            unfold line in *. rewrite <- E. exact E0. }
          enough (Some y = None) by discriminate. rewrite <- E. symmetry. exact G1. }
    destruct Hy as (x & X1 & X2 & X3).
    assert (Hin : In (lv', kl, v) (ops ++ [(lv', kl, v)])) by (apply in_or_app; right; now left).
    destruct X3 as [X3|X3]; [|rewrite X3 in G7; discriminate].
    apply (Hc lv' kl v x Hin X1 G2).
    + destruct G4; auto.
    + rewrite X2. unfold changes in G3. apply andb_true_iff in G3 as [G3 _]. exact G3.
    + rewrite <- X3. exact G7.
    + rewrite <- X3, G6, E3. reflexivity.
Qed.
(** Otherwise the remembered tag is lost: tagging one word of a line makes the
    other words of the line, which were not touched, lose their remembered tag. *)
Theorem C10_fall_back_refuted : exists d o t t',
  run ascii_space [o] d <> d /\
  tok_at d (0, 1) = Some t /\ last_set LMain (0, 1) [o] = None /\
  tok_at (run ascii_space [o] d) (0, 1) = Some t' /\
  shown LMain t = Some (u "i-title") /\ shown LMain t' = None.
Proof.
  exists [[mkTok (u "a") None None (Some (u "b-title")) None None;
           mkTok (u "b") None None (Some (u "i-title")) None None]],
    (LMain, (0, 0), Some (u "b-author")).
  eexists _, _. split; [discriminate|]. split; [reflexivity|]. repeat split; reflexivity.
Qed.

(** example: two lines, all words with remembered tags; the first is annotated *)
Definition ex_pdoc : doc :=
  [[mkTok (u "a") None None (Some (u "b-title")) (Some (u "b-s")) None;
    mkTok (u " ") None None (Some (u "i-title")) None None;
    mkTok (u "b") None None (Some (u "b-date")) None None];
   [mkTok (u "c") None None (Some (u "b-title")) None None]].
Definition ex_ops : list op :=
  [(LMain, (0, 0), Some (u "b-x")); (LSub, (0, 0), Some (u "b-y")); (LMain, (0, 0), Some (u "b-author"))].
Example C10_ex_run : map (map shown_tag) (run ascii_space ex_ops ex_pdoc)
  = [[Some (u "b-author"); None; Some (u "b-date")]; [Some (u "b-title")]].
Proof. reflexivity. Qed.
Example C10_ex_fall_back : forall lv' kl v x, In (lv', kl, v) ex_ops -> tok_at ex_pdoc kl = Some x ->
  fst kl = 0 -> (lv' = LMain \/ lv' = LMain) -> is_word ascii_space x = true ->
  truthy (value (remembered LMain x)) = true ->
  value (remembered LMain x) <> value (Some (u "b-date")).
Proof.
  intros lv' kl v x [H|[H|[H|[]]]]; injection H as <- <- <-; intros Hx; injection Hx as <-;
    intros; vm_compute; discriminate.
Qed.
Example C10_ex_prepare : map (map shown_tag) (prepare_tags true [u "title"; u "date"] [] true [] ex_pdoc)
  = [[None; None; None]; [None]] /\
  map (map shown_tag) (prepare_document ascii_space [u "date"] true [u "title"; u "date"] true [] ex_pdoc)
  = [[None; None; Some (u "b-date")]; [None]] /\
  map (map shown_tag) (prepare_document ascii_space [] true [u "title"] true [] ex_pdoc)
  = [[None; None; Some (u "b-date")]; [None]].
Proof. repeat split; reflexivity. Qed.
Example C10_ex_document : map (map (given LMain)) (prepare_document ascii_space [u "date"] true [u "title"; u "date"] true [] ex_pdoc)
  = [[None; None; Some (u "b-date")]; [None]] /\
  map (map (given LMain)) (prepare_document ascii_space [] true [u "title"] true [] ex_pdoc) = [[None; None; None]; [None]].
Proof. repeat split; reflexivity. Qed.

Print Assumptions C08_save.
Print Assumptions C08_single.
Print Assumptions C08_duplicates.
Print Assumptions C08_no_container.
Print Assumptions C08_refuted.
Print Assumptions C09_lines.
Print Assumptions C09_words.
Print Assumptions C09_one_line.
Print Assumptions C09_copies.
Print Assumptions C09_refuted.
Print Assumptions C09_remembered_refuted.
Print Assumptions C10_loaded.
Print Assumptions C10_prepared.
Print Assumptions C10_always.
Print Assumptions C10_document.
Print Assumptions C10_last_set.
Print Assumptions C10_new_wins.
Print Assumptions C10_fall_back.
Print Assumptions C10_fall_back_refuted.
