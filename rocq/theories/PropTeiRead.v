(** C03, C56, C57: loading a document.  The specification is in SpecTeiRead.v:
    it is stated on the element tree alone. *)
From Verif Require Import Base ModelTags ModelTokenize ModelXml ModelTei
  ProofXml ProofTags ProofTokenize SpecTeiRead ProofTeiRead ProofTeiLoad.

(* ---------------------------------------------------------------- *)
(** helper lemmas: reverse mapping *)
Lemma rev_mapping_get (m : list (str * str)) p :
  dict_get p (rev_mapping m) = option_map fst (find (fun kv => streq (snd kv) p) (rev m)).
Proof.
  unfold rev_mapping. rewrite <- fold_left_rev_right.
  induction (rev m) as [|[k v] l IH]; [reflexivity|]. cbn [fold_right find fst snd].
  destruct (streq v p) eqn:E.
  - apply streq_true in E. subst p. cbn [option_map fst]. apply dict_get_set_same.
  - rewrite dict_get_set_other; [exact IH|]. apply streq_false. exact E.
Qed.
Lemma map_rev_field m p : map_rev m (Some p) = Some (field_of m p).
Proof.
  unfold map_rev, field_of. rewrite rev_mapping_get. destruct (find _ _); reflexivity.
Qed.

Definition prefixed (i : item) : Prop :=
  match i with
  | ITok _ (Some t) => exists v, t = u "b-" ++ v \/ t = u "i-" ++ v
  | _ => True
  end.
Lemma preserve_prefixed m s t : prefixed (ITok s t) ->
  ITok s (preserve_tag m t) = rename (field_of m) (ITok s t).
Proof.
  destruct t as [t|]; [|reflexivity]. intros [v H]. f_equal.
  assert (E : preserve_tag m (Some t) =
    add_tag_prefix (Some (field_of m v)) (Some (firstn 2 t)) /\ skipn 2 t = v).
  { destruct H as [-> | ->]; (split; [|reflexivity]); rewrite <- map_rev_field; reflexivity. }
  cbn [rename]. destruct E as [-> ->]. destruct H as [-> | ->]; destruct (field_of m v); reflexivity.
Qed.
Lemma prefixed_untagged l : Forall prefixed (untagged l).
Proof. induction l as [|[s|] l IH]; constructor; cbn; auto. Qed.
Lemma prefixed_entity v l : Forall prefixed (entity v l).
Proof.
  induction l as [|[s|] l IH]; cbn [entity]; constructor; cbn; eauto.
  clear IH. induction l as [|[x|] l IH]; constructor; cbn; eauto.
Qed.
Lemma Forall_flat_map {A B} (P : B -> Prop) (f : A -> list B) l :
  Forall (fun a => Forall P (f a)) l -> Forall P (flat_map f l).
Proof. induction 1; cbn; [constructor|]. apply Forall_app. auto. Qed.
Lemma prefixed_tagged sp wd up lo rp : forall e path, Forall prefixed (tagged_items sp wd up lo rp path e).
Proof.
  induction e as [n a text cs tl IH|tl] using xml_ind'; intros path; [|constructor].
  cbn [tagged_items]. destruct (is_entity _ _ _ _); [apply prefixed_entity|].
  apply Forall_app. split; [apply prefixed_untagged|]. apply Forall_flat_map.
  eapply Forall_impl; [|exact IH]. intros c Hc. rewrite !Forall_app.
  split; [apply prefixed_untagged|split; [apply Hc|apply prefixed_untagged]].
Qed.
Lemma prefixed_container sp wd up lo rp e : Forall prefixed (container_items sp wd up lo rp e).
Proof.
  destruct e as [n a text cs tl|tl]; [|constructor]. cbn [container_items].
  rewrite !Forall_app. repeat split; try apply prefixed_untagged. apply Forall_flat_map.
  apply Forall_forall. intros c _. rewrite !Forall_app.
  split; [apply prefixed_untagged|split; [apply prefixed_tagged|apply prefixed_untagged]].
Qed.
Lemma prefixed_nested wd up lo : forall e path, Forall prefixed (nested_subs wd up lo path e).
Proof.
  induction e as [n a text cs tl IH|tl] using xml_ind'; intros path; [|constructor].
  cbn [nested_subs].
  apply Forall_app. split; [apply prefixed_entity|]. apply Forall_flat_map.
  eapply Forall_impl; [|exact IH]. intros c Hc. rewrite !Forall_app.
  split; [apply prefixed_untagged|split; [apply Hc|apply prefixed_untagged]].
Qed.
Lemma prefixed_subs sp wd up lo rp : forall e path, Forall prefixed (sub_items sp wd up lo rp path e).
Proof.
  induction e as [n a text cs tl IH|tl] using xml_ind'; intros path; [|constructor].
  cbn [sub_items].
  apply Forall_app. split; [apply prefixed_untagged|]. apply Forall_flat_map.
  eapply Forall_impl; [|exact IH]. intros c Hc. rewrite !Forall_app.
  split; [apply prefixed_untagged|split; [|apply prefixed_untagged]].
  destruct (is_entity _ _ _ _); [apply prefixed_nested|apply Hc].
Qed.
Lemma prefixed_container_subs sp wd up lo rp e : Forall prefixed (container_sub_items sp wd up lo rp e).
Proof.
  destruct e as [n a text cs tl|tl]; [|constructor]. cbn [container_sub_items].
  rewrite !Forall_app. repeat split; try apply prefixed_untagged. apply Forall_flat_map.
  apply Forall_forall. intros c _. rewrite !Forall_app.
  split; [apply prefixed_untagged|split; [apply prefixed_subs|apply prefixed_untagged]].
Qed.

Lemma items_of_lines_map f g ls :
  items_of_lines (fun t => g (f t)) ls
  = map (fun i => match i with ITok s t => ITok s (g t) | ILb => ILb end) (items_of_lines f ls).
Proof.
  induction ls as [|l ls IH]; [reflexivity|]. destruct ls as [|l' ls].
  - cbn. rewrite map_map. reflexivity.
  - change (items_of_lines f (l :: l' :: ls)) with
      (map (fun t => ITok (tx t) (f t)) l ++ ILb :: items_of_lines f (l' :: ls)).
    rewrite map_app, map_map. cbn [map]. rewrite <- IH. reflexivity.
Qed.
Lemma map_prefixed m l : Forall prefixed l ->
  map (fun i => match i with ITok s t => ITok s (preserve_tag m t) | ILb => ILb end) l
  = map (rename (field_of m)) l.
Proof.
  induction 1 as [|i l Hi HF IH]; [reflexivity|]. cbn [map]. rewrite IH. f_equal.
  destruct i as [s t|]; [|reflexivity]. now apply preserve_prefixed.
Qed.
Lemma without_final_break_Forall P l : Forall P l -> Forall P (without_final_break l).
Proof.
  intros H. unfold without_final_break. pose proof (Forall_rev H) as H2.
  destruct (rev l) as [|[s t|] r]; auto. inversion H2; subst. now apply Forall_rev.
Qed.
Lemma new_document_lines sp wd up lo m p es ls :
  new_document sp wd up lo m p es = Ok ls ->
  exists ls0, read_containers sp wd up lo (map snd m) es = Ok ls0 /\
    ls = map (map (fun t => reset_tok (if p then preserve_tok m t else t))) ls0.
Proof.
  unfold new_document, load_doc. destruct (read_containers _ _ _ _ _ _); [|discriminate].
  cbn [bind]. intros H. injection H as <-. eauto.
Qed.

(* ---------------------------------------------------------------- *)
(** ** C03 *)

(** The texts of all tokens, in order, are the text of the containers (and the
    text directly following each of them). *)
Theorem C03_text : forall sp wd up lo mapping preserve es ls,
  forallb named es = true ->
  new_document sp wd up lo mapping preserve es = Ok ls ->
  concat (map tx (concat ls)) = flat_map (fun e => content e ++ xtail e) es.
Proof.
  intros sp wd up lo m p es ls Hn H. apply new_document_lines in H as (ls0 & H & ->).
  transitivity (concat (map tx (concat ls0))).
  { f_equal. rewrite <- concat_map, map_map. apply map_ext. intros t. destruct p; reflexivity. }
  revert ls0 H. induction es as [|e es IH]; intros ls0 H.
  - injection H as <-. reflexivity.
  - cbn [forallb] in Hn. apply andb_true_iff in Hn as [Hne Hn].
    assert (Hl : loadable e = true).
    { assert (A : forallb loadable (e :: es) = true) by (apply (read_containers_loadable sp wd up lo (map snd m)); eauto).
      cbn in A. apply andb_true_iff in A. tauto. }
    rewrite read_containers_cons in H by assumption.
    destruct (read_containers sp wd up lo (map snd m) [e]) as [l1|] eqn:E1; [|discriminate].
    destruct (read_containers sp wd up lo (map snd m) es) as [l2|] eqn:E2; [|discriminate].
    cbn [bind] in H. injection H as <-. rewrite concat_app, map_app, concat_app. cbn [flat_map].
    rewrite (IH Hn l2 eq_refl). f_equal.
    apply read_containers_one in E1 as [E1 _]; [|assumption].
    rewrite <- (items_of_lines_text tag l1), E1, without_final_break_text.
    now apply container_items_text.
Qed.

(** Several containers: each is loaded by itself, the lines follow each other. *)
Theorem C03_containers : forall sp wd up lo mapping preserve e es,
  named e = true ->
  new_document sp wd up lo mapping preserve (e :: es) =
  do l1 <- new_document sp wd up lo mapping preserve [e] ;;
  do l2 <- new_document sp wd up lo mapping preserve es ;;
  Ok (l1 ++ l2).
Proof.
  intros sp wd up lo m p e es Hn. unfold new_document, load_doc.
  rewrite read_containers_cons by assumption.
  destruct (read_containers sp wd up lo (map snd m) [e]); [|reflexivity]. cbn [bind].
  destruct (read_containers sp wd up lo (map snd m) es); [|reflexivity]. cbn [bind].
  now rewrite map_app.
Qed.

(** Number of lines: one more than the number of line breaks, unless nothing
    at all follows the last line break (or the container is empty). *)
Theorem C03_lines : forall sp wd up lo mapping preserve e ls,
  named e = true ->
  new_document sp wd up lo mapping preserve [e] = Ok ls ->
  length ls = count_name (u "lb") e +
    match rev (container_items sp wd up lo (map snd mapping) e) with ITok _ _ :: _ => 1 | _ => 0 end.
Proof.
  intros sp wd up lo m p e ls Hn H. apply new_document_lines in H as (ls0 & H & ->).
  rewrite map_length. apply read_containers_count in H; [|assumption].
  etransitivity; [exact H|]. rewrite container_items_breaks. reflexivity.
Qed.

(** ... the exception: a trailing line break is not counted, although it is
    there (it is lost when saving). *)
Theorem C03_lines_refuted : exists mapping e ls,
  named e = true /\
  new_document ascii_space ascii_word ascii_upper ascii_lower mapping true [e] = Ok ls /\
  count_name (u "lb") e = 1 /\ length ls = 1.
Proof.
  exists [], (Elem (u "front") [] (u "text") [Elem (u "lb") [] [] [] []] []).
  eexists. vm_compute. repeat split; reflexivity.
Qed.

(* ---------------------------------------------------------------- *)
(** ** C56 *)
Theorem C56_loads_iff : forall sp wd up lo mapping preserve es,
  (exists ls, new_document sp wd up lo mapping preserve es = Ok ls) <-> forallb loadable es = true.
Proof.
  intros sp wd up lo m p es. rewrite (read_containers_loadable sp wd up lo (map snd m)).
  unfold new_document, load_doc.
  destruct (read_containers sp wd up lo (map snd m) es); cbn [bind];
    split; intros [ls H]; eauto; discriminate.
Qed.
Example C56_ex_comment : forall c,
  loadable (Elem (u "front") [] (u "a") [Elem (u "p") [] [] [Misc c] []] []) = false.
Proof. reflexivity. Qed.
Example C56_ex_attributes :
  loadable (Elem (u "front") [(u "a", u "1"); (u "b", u "2")] (u "a")
    [Elem (u "p") [(u "a", u "1")] [] [] []] []) = true /\
  loadable (Elem (u "front") [] (u "a")
    [Elem (u "p") [(u "a", u "1"); (u "b", u "2")] [] [] []] []) = false.
Proof. split; reflexivity. Qed.

(* ---------------------------------------------------------------- *)
(** ** C57 *)

(** Main tags.  After loading, no token has a (new) tag; the remembered tags,
    read in order together with the line breaks, are those of the
    specification, with paths replaced by field names. *)
Theorem C57_main_tags : forall sp wd up lo mapping e ls,
  named e = true ->
  new_document sp wd up lo mapping true [e] = Ok ls ->
  items_of_lines ptag ls =
    map (rename (field_of mapping))
      (without_final_break (container_items sp wd up lo (map snd mapping) e)) /\
  Forall (fun t => tag t = None /\ sub t = None) (concat ls).
Proof.
  intros sp wd up lo m e ls Hn H. apply new_document_lines in H as (ls0 & H & ->).
  cbn [andb] in *. split.
  - rewrite (items_of_lines_ext ptag (fun t => preserve_tag m (tag t))) by (intros; split; reflexivity).
    rewrite (items_of_lines_map tag (preserve_tag m)).
    apply read_containers_one in H as [H _]; [|assumption]. rewrite H.
    apply map_prefixed. apply without_final_break_Forall. apply prefixed_container.
  - rewrite <- concat_map. apply Forall_forall. intros t Ht.
    apply in_map_iff in Ht as (t0 & <- & _). split; reflexivity.
Qed.

(** Without preservation nothing is remembered. *)
Theorem C57_not_preserved : forall sp wd up lo mapping es ls,
  new_document sp wd up lo mapping false es = Ok ls ->
  Forall (fun t => tag t = None /\ sub t = None /\ ptag t = None /\ psub t = None) (concat ls).
Proof.
  intros sp wd up lo m es ls H. apply new_document_lines in H as (ls0 & H & ->).
  apply fresh_read_containers in H. rewrite Forall_forall in H.
  rewrite <- concat_map. apply Forall_forall. intros t Ht.
  apply in_map_iff in Ht as (t0 & <- & Hin). apply H in Hin as [H1 H2].
  repeat split; assumption.
Qed.

Lemma words_nonblank sp l : words sp l = words sp (nonblank sp l).
Proof.
  unfold words, nonblank. induction l as [|[s t|] l IH]; cbn [filter]; [reflexivity| |exact IH].
  destruct (blank sp s) eqn:E; cbn [negb filter]; [exact IH|]. rewrite E. cbn. now rewrite IH.
Qed.
Lemma words_app sp l1 l2 : words sp (l1 ++ l2) = words sp l1 ++ words sp l2.
Proof. apply filter_app. Qed.
Lemma words_without_final_break sp l : words sp (without_final_break l) = words sp l.
Proof.
  destruct l as [|x l]; [reflexivity|]. assert (Hn : x :: l <> []) by discriminate.
  destruct (exists_last Hn) as (l0 & i & ->). destruct i.
  - now rewrite without_final_break_tok.
  - rewrite without_final_break_lb, words_app. cbn. now rewrite app_nil_r.
Qed.
Lemma words_items_of_lines sp f ls :
  words sp (items_of_lines f ls) = words sp (map (fun t => ITok (tx t) (f t)) (concat ls)).
Proof.
  induction ls as [|l ls IH]; [reflexivity|]. destruct ls as [|l' ls].
  - cbn. now rewrite app_nil_r.
  - change (items_of_lines f (l :: l' :: ls)) with
      (map (fun t => ITok (tx t) (f t)) l ++ ILb :: items_of_lines f (l' :: ls)).
    cbn [concat]. rewrite map_app, !words_app. f_equal. exact IH.
Qed.
Lemma words_map sp g l :
  words sp (map (fun i => match i with ITok s t => ITok s (g t) | ILb => ILb end) l)
  = map (fun i => match i with ITok s t => ITok s (g t) | ILb => ILb end) (words sp l).
Proof.
  unfold words. induction l as [|[s t|] l IH]; cbn; [reflexivity| |exact IH].
  destruct (negb (blank sp s)); cbn; now rewrite IH.
Qed.

(** Sub tags of the non-blank tokens. *)
Theorem C57_sub_tags : forall sp wd up lo mapping e ls,
  named e = true ->
  new_document sp wd up lo mapping true [e] = Ok ls ->
  words sp (map (fun t => ITok (tx t) (psub t)) (concat ls)) =
  map (rename (field_of mapping)) (words sp (container_sub_items sp wd up lo (map snd mapping) e)).
Proof.
  intros sp wd up lo m e ls Hn H. apply new_document_lines in H as (ls0 & H & ->).
  rewrite <- words_items_of_lines.
  rewrite (items_of_lines_ext psub (fun t => preserve_tag m (sub t))) by (intros; split; reflexivity).
  rewrite (items_of_lines_map sub (preserve_tag m)).
  apply read_containers_one in H as [_ (its & Hi & H)]; [|assumption].
  rewrite words_map, H, words_without_final_break, words_nonblank, Hi, <- words_nonblank.
  apply map_prefixed. apply incl_Forall with (l1 := container_sub_items sp wd up lo (map snd m) e).
  - intros x Hx. unfold words in Hx. apply filter_In in Hx. tauto.
  - apply prefixed_container_subs.
Qed.

(** A nested element does not keep its sub tag: what follows a child element
    (e.g. a line break) inside it is loaded without the sub tag, although its
    main tag is kept. *)
Theorem C57_sub_tags_refuted : exists mapping a b ls,
  let author := Elem (u "docAuthor") [] a [Elem (u "lb") [] [] [] b] [] in
  new_document ascii_space ascii_word ascii_upper ascii_lower mapping true
    [Elem (u "front") [] [] [Elem (u "byline") [] (u "by ") [author] []] []] = Ok ls /\
  (exists t, In t (concat ls) /\ tx t = a /\ psub t = Some (u "b-author")) /\
  (exists t, In t (concat ls) /\ tx t = b /\ ptag t = Some (u "i-byline") /\ psub t = None).
Proof.
  exists [(u "author", u "byline/docAuthor")], (u "John"), (u "Smith"). eexists.
  cbv zeta. split; [vm_compute; reflexivity|].
  split; eexists; split.
  - vm_compute. right. right. left. reflexivity.
  - repeat split; reflexivity.
  - vm_compute. right. right. right. left. reflexivity.
  - repeat split; reflexivity.
Qed.

(** * C71: white space after a token *)
(** In a line every token but the last carries the text of the following token if that
    is white space, and no white space otherwise; the last token carries nothing. *)
Inductive spaced (sp : N -> bool) : list tok -> Prop :=
| spaced_nil : spaced sp []
| spaced_last t : ws t = None -> spaced sp [t]
| spaced_blank t t' l : blank sp (tx t') = true -> ws t = Some (tx t') -> spaced sp (t' :: l) -> spaced sp (t :: t' :: l)
| spaced_word t t' l : blank sp (tx t') = false -> ws t = Some [] -> spaced sp (t' :: l) -> spaced sp (t :: t' :: l).

Section Whitespace.
Variables sp wd up lo : N -> bool.
Lemma set_last_ws_hd w t l : exists t' l', set_last_ws w (t :: l) = t' :: l' /\ tx t' = tx t.
Proof. destruct l as [|t1 l]; [now eexists _, []|]. now exists t, (set_last_ws w (t1 :: l)). Qed.
Lemma spaced_snoc l n : spaced sp l -> ws n = None -> spaced sp (set_last_ws (if blank sp (tx n) then tx n else []) l ++ [n]).
Proof.
  intros H Hn. induction H as [|t Ht|t t' l B W H IH|t t' l B W H IH]; cbn [set_last_ws].
  - now constructor.
  - cbn [app]. destruct (blank sp (tx n)) eqn:E; [apply spaced_blank|apply spaced_word]; auto; now constructor.
  - destruct (set_last_ws_hd (if blank sp (tx n) then tx n else []) t' l) as (t2 & l2 & E & Et).
    change (match l with [] => [_] | _ :: _ => t' :: set_last_ws _ l end) with (set_last_ws (if blank sp (tx n) then tx n else []) (t' :: l)).
    rewrite E in *. cbn [app] in *. apply spaced_blank; now rewrite ?Et.
  - destruct (set_last_ws_hd (if blank sp (tx n) then tx n else []) t' l) as (t2 & l2 & E & Et).
    change (match l with [] => [_] | _ :: _ => t' :: set_last_ws _ l end) with (set_last_ws (if blank sp (tx n) then tx n else []) (t' :: l)).
    rewrite E in *. cbn [app] in *. apply spaced_word; now rewrite ?Et.
Qed.
Definition spaced_buf (b : buf) : Prop := Forall (spaced sp) (b_lines b) /\ spaced sp (b_toks b).
Lemma spaced_append_text b s : spaced_buf b -> spaced_buf (append_text sp wd up lo b s).
Proof.
  intros H. unfold append_text. destruct s as [|c s]; [exact H|]. generalize (tokenize_text wd up lo (c :: s)). intros l. revert b H.
  induction l as [|x l IH]; intros b H; [exact H|]. cbn [fold_left]. apply IH. destruct H as [H1 H2]. split; [exact H1|].
  unfold append_token. cbn [b_toks]. apply (spaced_snoc (b_toks b) (mkTok x (b_tag b) (b_sub b) None None None) H2). reflexivity.
Qed.
Lemma spaced_flush b : spaced_buf b -> spaced_buf (flush b).
Proof. intros [H1 H2]. split; [|constructor]. cbn [flush b_lines]. apply Forall_app. auto. Qed.
Lemma spaced_read_elem root_paths : forall e path b b', spaced_buf b ->
  read_elem sp wd up lo root_paths e path b = Ok b' -> spaced_buf b'.
Proof.
  induction e as [n a text cs tl IH|tl] using xml_ind'; intros path b b' Hb H; [|discriminate].
  cbn [read_elem] in H.
  match type of H with context [append_text sp wd up lo ?x text] => assert (H1 : spaced_buf x) end.
  { destruct (is_tagging _ _ _ _ _); [|exact Hb]. destruct (truthy _); exact Hb. }
  apply (spaced_append_text _ text) in H1. revert H1 H.
  match goal with |- context [append_text sp wd up lo ?x text] => generalize (append_text sp wd up lo x text) end.
  intros b2 Hb2 H.
  match type of H with (do _ <- ?r ;; _) = _ => destruct r as [b3|] eqn:E end; [|discriminate]. cbn [bind] in H. injection H as <-.
  apply spaced_append_text.
  assert (H3 : spaced_buf b3).
  { clear -IH Hb2 E. revert b2 Hb2 E. induction IH as [|c cs Hc HF IHc]; intros b2 Hb2 E; [injection E as <-; exact Hb2|].
    destruct (node_to_tag_expression c) as [frag|]; [|discriminate]. cbn [bind] in E.
    destruct (read_elem sp wd up lo root_paths c (path ++ [frag]) (if is_lb c then flush b2 else b2)) as [b4|] eqn:E4; [|discriminate].
    cbn [bind] in E. apply (IHc b4); [|exact E]. eapply Hc; [|exact E4]. destruct (is_lb c); [now apply spaced_flush|exact Hb2]. }
  destruct (truthy _); exact H3.
Qed.
Lemma spaced_read_containers root_paths es : forall b b', spaced_buf b ->
  foldM (fun b e => do b1 <- read_elem sp wd up lo root_paths e [] b ;; Ok (match b_toks b1 with [] => b1 | _ => flush b1 end)) b es = Ok b' ->
  spaced_buf b'.
Proof.
  induction es as [|e es IH]; intros b b' Hb H; cbn [foldM] in H; [injection H as <-; exact Hb|].
  destruct (read_elem sp wd up lo root_paths e [] b) as [b1|] eqn:E; [|discriminate]. cbn [bind] in H. apply (IH _ _) in H; [exact H|].
  assert (H1 := spaced_read_elem _ _ _ _ _ Hb E). destruct (b_toks b1); [exact H1|now apply spaced_flush].
Qed.
Lemma spaced_map f l : (forall t, tx (f t) = tx t /\ ws (f t) = ws t) -> spaced sp l -> spaced sp (map f l).
Proof.
  intros Hf H. induction H as [|t Ht|t t' l B W H IH|t t' l B W H IH]; cbn [map] in *.
  - constructor.
  - constructor. now rewrite (proj2 (Hf t)).
  - apply spaced_blank; [now rewrite (proj1 (Hf t'))|rewrite (proj2 (Hf t)), (proj1 (Hf t')); exact W|exact IH].
  - apply spaced_word; [now rewrite (proj1 (Hf t'))|rewrite (proj2 (Hf t)); exact W|exact IH].
Qed.
(** The white space recorded for the tokens of a loaded document is that of the line. *)
Theorem C71_whitespace mapping preserve es ls :
  new_document sp wd up lo mapping preserve es = Ok ls -> Forall (spaced sp) ls.
Proof.
  intros H. apply new_document_lines in H as (ls0 & H & ->).
  assert (H0 : Forall (spaced sp) ls0).
  { unfold read_containers in H. destruct (foldM _ _ _) as [b|] eqn:E; [|discriminate]. injection H as <-.
    apply (spaced_read_containers _ _ _ _) in E; [exact (proj1 E)|]. split; constructor. }
  apply Forall_map. eapply Forall_impl; [|exact H0]. intros l. apply spaced_map. intros t. destruct preserve; split; reflexivity.
Qed.
End Whitespace.

(** concrete document meeting the hypotheses of C03_*, C57_* *)
Definition ex_front : xml :=
  Elem (u "front") [] []
    [Elem (u "docTitle") [] [] [Elem (u "titlePart") [] (u "The title") [Elem (u "lb") [] [] [] (u "line2")] []] (u " ");
     Elem (u "byline") [] (u "by ") [Elem (u "docAuthor") [] (u "Smith") [] []] (u ".")] [].
Definition ex_mapping : list (str * str) :=
  [(u "title", u "docTitle/titlePart"); (u "author", u "byline/docAuthor")].
Example C57_ex : named ex_front = true /\ loadable ex_front = true /\
  map (rename (field_of ex_mapping))
    (container_items ascii_space ascii_word ascii_upper ascii_lower (map snd ex_mapping) ex_front)
  = [ITok (u "The") (Some (u "b-title")); ITok (u " ") (Some (u "i-title"));
     ITok (u "title") (Some (u "i-title")); ILb;
     ITok (u "line2") (Some (u "i-title")); ITok (u " ") None;
     ITok (u "by") (Some (u "b-byline")); ITok (u " ") (Some (u "i-byline"));
     ITok (u "Smith") (Some (u "i-byline")); ITok (u ".") None] /\
  map (rename (field_of ex_mapping))
    (words ascii_space (container_sub_items ascii_space ascii_word ascii_upper ascii_lower (map snd ex_mapping) ex_front))
  = [ITok (u "The") None; ITok (u "title") None; ITok (u "line2") None;
     ITok (u "by") None; ITok (u "Smith") (Some (u "b-author")); ITok (u ".") None].
Proof. vm_compute. repeat split; reflexivity. Qed.

Example C71_ex : exists ls, new_document ascii_space ascii_word ascii_upper ascii_lower ex_mapping true [ex_front] = Ok ls /\
  map (map (fun t => (tx t, ws t))) ls =
  [[(u "The", Some (u " ")); (u " ", Some []); (u "title", None)];
   [(u "line2", Some (u " ")); (u " ", Some []); (u "by", Some (u " ")); (u " ", Some []); (u "Smith", Some []); (u ".", None)]].
Proof. eexists. split; vm_compute; reflexivity. Qed.

Print Assumptions C03_text.
Print Assumptions C03_containers.
Print Assumptions C03_lines.
Print Assumptions C03_lines_refuted.
Print Assumptions C56_loads_iff.
Print Assumptions C57_main_tags.
Print Assumptions C57_not_preserved.
Print Assumptions C57_sub_tags.
Print Assumptions C57_sub_tags_refuted.
Print Assumptions C71_whitespace.
