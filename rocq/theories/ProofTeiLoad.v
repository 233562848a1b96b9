(** Lemmas about loading whole documents. *)
From Verif Require Import Base ModelTags ModelTokenize ModelXml ModelTei
  ProofXml ProofTags ProofTokenize SpecTeiRead ProofTeiRead.

Section Load.
Variables sp wd up lo : N -> bool.
Variable root_paths : list str.
Notation read_elem := (read_elem sp wd up lo root_paths).
Notation read_containers := (read_containers sp wd up lo root_paths).
Notation container_items := (container_items sp wd up lo root_paths).
Notation container_sub_items := (container_sub_items sp wd up lo root_paths).

Lemma items_of_lines_snoc f ls l :
  items_of_lines f (ls ++ [l]) =
  flat_map (fun l => map (fun t => ITok (tx t) (f t)) l ++ [ILb]) ls ++ map (fun t => ITok (tx t) (f t)) l.
Proof.
  induction ls as [|l0 ls IH]; [reflexivity|].
  cbn [app flat_map]. destruct (ls ++ [l]) eqn:E; [destruct ls; discriminate|].
  cbn [items_of_lines]. cbn [items_of_lines] in IH. rewrite IH. rewrite <- !app_assoc. reflexivity.
Qed.

Lemma without_final_break_lb l : without_final_break (l ++ [ILb]) = l.
Proof. unfold without_final_break. rewrite rev_app_distr. cbn. apply rev_involutive. Qed.
Lemma without_final_break_tok l s t : without_final_break (l ++ [ITok s t]) = l ++ [ITok s t].
Proof. unfold without_final_break. rewrite rev_app_distr. reflexivity. Qed.

Definition finish (b : buf) : buf := match b_toks b with [] => b | _ => flush b end.

Lemma finish_items f b :
  items_of_lines f (b_lines (finish b)) = without_final_break
    (flat_map (fun l => map (fun t => ITok (tx t) (f t)) l ++ [ILb]) (b_lines b)
      ++ map (fun t => ITok (tx t) (f t)) (b_toks b)).
Proof.
  unfold finish. destruct (b_toks b) as [|t0 ts] eqn:E.
  - cbn [map]. rewrite app_nil_r.
    destruct (list_eq_dec (list_eq_dec (fun a b : tok => ltac:(decide equality; apply ostr_eq_dec || apply str_eq_dec))) (b_lines b) []) as [->|Hn]; [reflexivity|].
    destruct (exists_last Hn) as (l1 & lr & ->).
    rewrite flat_map_app. cbn [flat_map]. rewrite app_nil_r, app_assoc, without_final_break_lb.
    apply items_of_lines_snoc.
  - unfold flush. cbn [b_lines]. rewrite items_of_lines_snoc, E.
    assert (Hn : t0 :: ts <> []) by discriminate. destruct (exists_last Hn) as (xs & x & ->).
    rewrite map_app, app_assoc. cbn [map]. now rewrite without_final_break_tok.
Qed.

Notation step := (fun b e => do b1 <- read_elem e [] b ;; Ok (finish b1)).

(** one container is loaded independently of those before it *)
Lemma foldM_add_lines L : forall es b,
  foldM step (add_lines L b) es = do b' <- foldM step b es ;; Ok (add_lines L b').
Proof.
  induction es as [|e es IH]; intros b; [reflexivity|].
  cbn [foldM]. rewrite read_add_lines. destruct (read_elem e [] b) as [b1|]; [|reflexivity].
  cbn [bind].
  assert (Ef : finish (add_lines L b1) = add_lines L (finish b1)).
  { unfold finish. cbn [add_lines b_toks]. destruct (b_toks b1); [reflexivity|]. apply flush_add_lines. }
  rewrite Ef. apply IH.
Qed.

Lemma read_containers_cons e es : named e = true ->
  read_containers (e :: es) =
  do l1 <- read_containers [e] ;; do l2 <- read_containers es ;; Ok (l1 ++ l2).
Proof.
  intros Hn.
  assert (RC : forall es, read_containers es = do b <- foldM step empty_buf es ;; Ok (b_lines b)) by reflexivity.
  rewrite !RC. cbn [foldM].
  destruct (read_elem e [] empty_buf) as [b1|] eqn:E; [|reflexivity]. cbn [bind].
  destruct (read_container sp wd up lo root_paths e empty_buf b1 Hn eq_refl E) as [_ Ht].
  destruct (read_container_subs sp wd up lo root_paths e empty_buf b1 Hn eq_refl eq_refl E) as [_ Hs].
  assert (Ef : finish b1 = add_lines (b_lines (finish b1)) empty_buf).
  { unfold finish, add_lines, flush. destruct b1 as [L T tg sb]. cbn in *. subst tg sb.
    destruct T; cbn; now rewrite app_nil_r. }
  rewrite Ef. rewrite foldM_add_lines. cbn [b_lines add_lines].
  destruct (foldM step empty_buf es) as [b2|]; [|reflexivity].
  cbn [bind add_lines b_lines]. cbn [empty_buf b_lines]. now rewrite app_nil_r.
Qed.

Lemma read_containers_one e ls : named e = true -> read_containers [e] = Ok ls ->
  items_of_lines tag ls = without_final_break (container_items e) /\
  exists items, nonblank sp items = nonblank sp (container_sub_items e) /\
                items_of_lines sub ls = without_final_break items.
Proof.
  intros Hn H. unfold ModelTei.read_containers in H. cbn [foldM] in H.
  destruct (read_elem e [] empty_buf) as [b1|] eqn:E; [|discriminate]. cbn [bind] in H.
  injection H as <-.
  destruct (read_container sp wd up lo root_paths e empty_buf b1 Hn eq_refl E) as [Hi _].
  destruct (read_container_subs sp wd up lo root_paths e empty_buf b1 Hn eq_refl eq_refl E) as [Hs _].
  change (match b_toks b1 with [] => b1 | _ :: _ => flush b1 end) with (finish b1).
  split.
  - rewrite finish_items. f_equal. exact Hi.
  - rewrite finish_items. exists (sitems b1). split; [exact Hs|]. reflexivity.
Qed.

Lemma read_containers_loadable es :
  forallb loadable es = true <-> exists ls, read_containers es = Ok ls.
Proof.
  unfold ModelTei.read_containers. generalize empty_buf as b. induction es as [|e es IH]; intros b.
  - cbn. split; eauto.
  - cbn [forallb foldM]. rewrite andb_true_iff.
    rewrite (read_loadable sp wd up lo root_paths e [] b).
    destruct (read_elem e [] b) as [b1|]; cbn [bind].
    + rewrite <- IH. intuition eauto.
    + split; [intros [[? ?] _]; discriminate|intros [? ?]; discriminate].
Qed.

(** text of the items *)
Lemma items_text_app l1 l2 : items_text (l1 ++ l2) = items_text l1 ++ items_text l2.
Proof. apply flat_map_app. Qed.
Definition otext (o : option str) : str := match o with Some s => s | None => [] end.
Lemma untagged_text l : items_text (untagged l) = flat_map otext l.
Proof.
  unfold items_text. induction l as [|[s|] l IH]; cbn; [reflexivity|f_equal; exact IH|exact IH].
Qed.
Lemma with_tag_text t l : items_text (with_tag t l) = flat_map otext l.
Proof. unfold items_text. induction l as [|[s|] l IH]; cbn; [reflexivity|f_equal; exact IH|exact IH]. Qed.
Lemma entity_text v l : items_text (entity v l) = flat_map otext l.
Proof.
  unfold items_text. induction l as [|[s|] l IH]; cbn; [reflexivity| |exact IH].
  f_equal. apply with_tag_text.
Qed.
Lemma toks_text s : flat_map otext (toks wd up lo s) = s.
Proof.
  rewrite <- (glue_concat wd up lo s) at 2. unfold toks. rewrite tokenize_glue.
  induction (glue wd up lo s) as [|a l IH]; cbn; [reflexivity|]. now rewrite IH.
Qed.
Lemma lb_text c : flat_map otext (lb_of c) = [].
Proof. unfold lb_of. destruct (is_lb c); reflexivity. Qed.

Lemma inner_text : forall e, flat_map otext (inner wd up lo e) = content e.
Proof.
  induction e as [n a text cs tl IH|tl] using xml_ind'; [|reflexivity].
  cbn [inner content]. rewrite flat_map_app, toks_text. f_equal.
  induction IH as [|c cs Hc HF IHc]; [reflexivity|].
  cbn [flat_map]. rewrite !flat_map_app, lb_text, toks_text, Hc, IHc. reflexivity.
Qed.
Lemma tagged_items_text : forall e path,
  items_text (tagged_items sp wd up lo root_paths path e) = content e.
Proof.
  induction e as [n a text cs tl IH|tl] using xml_ind'; intros path; [|reflexivity].
  cbn [tagged_items]. destruct (is_entity _ _ _ _).
  - rewrite entity_text. apply inner_text.
  - rewrite items_text_app, untagged_text, toks_text. cbn [content]. f_equal.
    induction IH as [|c cs Hc HF IHc]; [reflexivity|].
    cbn [flat_map]. rewrite !items_text_app, !untagged_text, lb_text, toks_text, Hc, IHc. reflexivity.
Qed.
Lemma container_items_text e : named e = true -> loadable e = true ->
  items_text (container_items e) = content e ++ xtail e.
Proof.
  destruct e as [n a text cs tl|tl]; [|discriminate]. intros _ _.
  cbn [SpecTeiRead.container_items content xtail].
  rewrite !items_text_app, !untagged_text, !toks_text, <- app_assoc. f_equal. f_equal.
  induction cs as [|c cs IHc]; [reflexivity|].
  cbn [flat_map]. rewrite !items_text_app, !untagged_text, lb_text, toks_text, tagged_items_text, IHc. reflexivity.
Qed.

(** line breaks of the items *)
Definition breaks (l : list item) : nat :=
  length (filter (fun i => match i with ILb => true | _ => false end) l).
Definition obreaks (l : list (option str)) : nat :=
  length (filter (fun o => match o with None => true | _ => false end) l).
Lemma breaks_app l1 l2 : breaks (l1 ++ l2) = breaks l1 + breaks l2.
Proof. unfold breaks. now rewrite filter_app, app_length. Qed.
Lemma obreaks_app l1 l2 : obreaks (l1 ++ l2) = obreaks l1 + obreaks l2.
Proof. unfold obreaks. now rewrite filter_app, app_length. Qed.
Lemma untagged_breaks l : breaks (untagged l) = obreaks l.
Proof. induction l as [|[s|] l IH]; cbn in *; auto. Qed.
Lemma with_tag_breaks t l : breaks (with_tag t l) = obreaks l.
Proof. induction l as [|[s|] l IH]; cbn in *; auto. Qed.
Lemma entity_breaks v l : breaks (entity v l) = obreaks l.
Proof.
  induction l as [|[s|] l IH]; cbn in *; auto. apply (with_tag_breaks _ l).
Qed.
Lemma toks_breaks s : obreaks (toks wd up lo s) = 0.
Proof. unfold toks. induction (tokenize_text wd up lo s); cbn; auto. Qed.
Lemma lb_breaks c : obreaks (lb_of c) = match c with Elem m _ _ _ _ => if streq m LB then 1 else 0 | Misc _ => 0 end.
Proof. unfold lb_of, is_lb. destruct c as [n a t cs tl|tl]; [|reflexivity]. destruct (streq n LB); reflexivity. Qed.
Lemma inner_breaks : forall e, obreaks (inner wd up lo e) = count_name LB e.
Proof.
  induction e as [n a text cs tl IH|tl] using xml_ind'; [|reflexivity].
  cbn [inner count_name]. rewrite obreaks_app, toks_breaks. cbn [plus].
  induction IH as [|c cs Hc HF IHc]; [reflexivity|].
  cbn [flat_map map]. change (list_sum (?x :: ?l)) with (x + list_sum l).
  rewrite !obreaks_app, lb_breaks, toks_breaks, Hc, IHc. cbn [list_sum fold_right]. lia.
Qed.
Lemma tagged_items_breaks : forall e path,
  breaks (tagged_items sp wd up lo root_paths path e) = count_name LB e.
Proof.
  induction e as [n a text cs tl IH|tl] using xml_ind'; intros path; [|reflexivity].
  cbn [tagged_items]. destruct (is_entity _ _ _ _).
  - rewrite entity_breaks. apply inner_breaks.
  - rewrite breaks_app, untagged_breaks, toks_breaks. cbn [count_name plus].
    induction IH as [|c cs Hc HF IHc]; [reflexivity|].
    cbn [flat_map map list_sum fold_right].
    rewrite !breaks_app, !untagged_breaks, lb_breaks, toks_breaks, Hc, IHc. unfold list_sum. lia.
Qed.
Lemma container_items_breaks e : breaks (container_items e) = count_name LB e.
Proof.
  destruct e as [n a text cs tl|tl]; [|reflexivity].
  cbn [SpecTeiRead.container_items count_name].
  rewrite !breaks_app, !untagged_breaks, !toks_breaks. cbn [plus]. rewrite Nat.add_0_r.
  induction cs as [|c cs IHc]; [reflexivity|].
  cbn [flat_map map list_sum fold_right].
  rewrite !breaks_app, !untagged_breaks, lb_breaks, toks_breaks, tagged_items_breaks, IHc. unfold list_sum. lia.
Qed.

Lemma items_of_lines_text f ls : items_text (items_of_lines f ls) = concat (map tx (concat ls)).
Proof.
  assert (H : forall l : line, items_text (map (fun t => ITok (tx t) (f t)) l) = concat (map tx l)).
  { unfold items_text. induction l as [|t l IH]; cbn; [reflexivity|]. now rewrite IH. }
  induction ls as [|l ls IH]; [reflexivity|].
  cbn [concat]. rewrite map_app, concat_app. destruct ls as [|l' ls].
  - cbn. now rewrite H, app_nil_r.
  - change (items_of_lines f (l :: l' :: ls)) with
      (map (fun t => ITok (tx t) (f t)) l ++ ILb :: items_of_lines f (l' :: ls)).
    rewrite items_text_app, H. f_equal. exact IH.
Qed.
Lemma without_final_break_text l : items_text (without_final_break l) = items_text l.
Proof.
  destruct l as [|x l]; [reflexivity|]. assert (Hn : x :: l <> []) by discriminate.
  destruct (exists_last Hn) as (l0 & i & ->). destruct i.
  - now rewrite without_final_break_tok.
  - rewrite without_final_break_lb, items_text_app. cbn. now rewrite app_nil_r.
Qed.
Lemma breaks_map f (l : line) : breaks (map (fun t => ITok (tx t) (f t)) l) = 0.
Proof. induction l; cbn; auto. Qed.
Lemma breaks_items_of_lines f ls : breaks (items_of_lines f ls) = pred (length ls).
Proof.
  induction ls as [|l ls IH]; [reflexivity|]. destruct ls as [|l' ls].
  - cbn. apply breaks_map.
  - change (items_of_lines f (l :: l' :: ls)) with
      (map (fun t => ITok (tx t) (f t)) l ++ ILb :: items_of_lines f (l' :: ls)).
    rewrite breaks_app, breaks_map. change (breaks (ILb :: ?x)) with (S (breaks x)). rewrite IH. reflexivity.
Qed.

Lemma read_containers_count e ls : named e = true -> read_containers [e] = Ok ls ->
  length ls = breaks (container_items e) +
    match rev (container_items e) with ITok _ _ :: _ => 1 | _ => 0 end.
Proof.
  intros Hn H. unfold ModelTei.read_containers in H. cbn [foldM] in H.
  destruct (read_elem e [] empty_buf) as [b1|] eqn:E; [|discriminate]. cbn [bind] in H.
  injection H as <-.
  destruct (read_container sp wd up lo root_paths e empty_buf b1 Hn eq_refl E) as [Hi _].
  cbn [app] in Hi. change (items empty_buf) with (@nil item) in Hi. cbn [app] in Hi.
  rewrite <- Hi. unfold items. rewrite rev_app_distr, breaks_app.
  change (map it (b_toks b1)) with (map (fun t => ITok (tx t) (tag t)) (b_toks b1)).
  rewrite breaks_map, Nat.add_0_r.
  assert (HL : forall L, breaks (lines_items L) = length L).
  { induction L as [|l L IH]; [reflexivity|]. unfold lines_items in *. cbn [flat_map length].
    rewrite !breaks_app, IH. change (map it l) with (map (fun t => ITok (tx t) (tag t)) l).
    rewrite breaks_map. reflexivity. }
  rewrite HL. destruct (b_toks b1) as [|t ts].
  - cbn [map rev app]. destruct (b_lines b1) as [|l0 L0] eqn:EL; [reflexivity|].
    assert (Hne : l0 :: L0 <> []) by discriminate. destruct (exists_last Hne) as (L & l & ->).
    unfold lines_items. rewrite flat_map_app. cbn [flat_map]. rewrite app_nil_r.
    rewrite !rev_app_distr. cbn [rev app]. lia.
  - assert (Hne : t :: ts <> []) by discriminate. destruct (exists_last Hne) as (L & l & ->).
    rewrite map_app, rev_app_distr. cbn [rev app map]. unfold flush. cbn [b_lines].
    rewrite app_length. reflexivity.
Qed.

(** tokens read have no remembered tags *)
Definition fresh (t : tok) : Prop := ptag t = None /\ psub t = None.
Definition fresh_buf (b : buf) : Prop := Forall fresh (concat (b_lines b)) /\ Forall fresh (b_toks b).
Lemma fresh_set_last_ws w l : Forall fresh l -> Forall fresh (set_last_ws w l).
Proof.
  induction 1 as [|t l Ht HF IH]; [constructor|]. destruct l.
  - cbn. constructor; [exact Ht|constructor].
  - change (set_last_ws w (t :: t0 :: l)) with (t :: set_last_ws w (t0 :: l)). now constructor.
Qed.
Lemma fresh_append_text b t : fresh_buf b -> fresh_buf (append_text sp wd up lo b t).
Proof.
  unfold append_text. destruct t; [auto|]. generalize (tokenize_text wd up lo (n :: t)). intros l. revert b.
  induction l as [|s l IH]; intros b H; [exact H|]. cbn [fold_left]. apply IH.
  destruct H as [H1 H2]. split; [exact H1|]. cbn. apply Forall_app. split.
  - now apply fresh_set_last_ws.
  - constructor; [split; reflexivity|constructor].
Qed.
Lemma fresh_flush b : fresh_buf b -> fresh_buf (flush b).
Proof.
  intros [H1 H2]. split; [|constructor]. cbn. rewrite concat_app, Forall_app. cbn. now rewrite app_nil_r.
Qed.
Lemma fresh_read : forall e path b b', fresh_buf b -> read_elem e path b = Ok b' -> fresh_buf b'.
Proof.
  induction e as [n a text cs tl IH|tl] using xml_ind'; intros path b b' Hb H; [|discriminate].
  rewrite read_elem_eq in H. cbv zeta in H.
  match type of H with context [append_text sp wd up lo ?x text] => set (b1 := x) in H end.
  assert (H1 : fresh_buf b1).
  { unfold b1. destruct (is_tagging _ _ _ _ _), (truthy (b_tag b)); exact Hb. }
  apply (fresh_append_text _ text) in H1. set (b2 := append_text sp wd up lo b1 text) in *.
  clearbody b2. clear b1.
  match type of H with bind ?x _ = _ => destruct x as [b3|] eqn:E; [|discriminate] end.
  cbn [bind] in H. injection H as <-. apply fresh_append_text.
  assert (H3 : fresh_buf b3); [|destruct (truthy (b_tag b)); exact H3].
  revert b2 b3 H1 E. induction IH as [|c cs Hc HF IHc]; intros b2 b3 H1 E.
  - injection E as <-. exact H1.
  - cbn [read_children] in E. destruct (node_to_tag_expression c); [|discriminate]. cbn [bind] in E.
    match type of E with bind ?x _ = _ => destruct x as [b4|] eqn:E4; [|discriminate] end.
    cbn [bind] in E. eapply IHc; [|exact E]. eapply Hc; [|exact E4].
    destruct (is_lb c); [now apply fresh_flush|exact H1].
Qed.
Lemma fresh_read_containers es ls : read_containers es = Ok ls -> Forall fresh (concat ls).
Proof.
  unfold ModelTei.read_containers.
  assert (Hb : fresh_buf empty_buf) by (split; constructor). revert Hb. generalize empty_buf as b.
  induction es as [|e es IH]; intros b Hb H.
  - injection H as <-. apply Hb.
  - cbn [foldM] in H. destruct (read_elem e [] b) as [b1|] eqn:E; [|discriminate]. cbn [bind] in H.
    apply IH in H; [exact H|]. apply fresh_read in E; [|exact Hb].
    destruct (b_toks b1); [exact E|now apply fresh_flush].
Qed.

(** renaming of tags commutes with reading lines as items *)
Lemma items_of_lines_ext f g h ls :
  (forall t, In t (concat ls) -> f (h t) = g t /\ tx (h t) = tx t) ->
  items_of_lines f (map (map h) ls) = items_of_lines g ls.
Proof.
  intros H. assert (A : forall l, In l ls ->
    map (fun t => ITok (tx t) (f t)) (map h l) = map (fun t => ITok (tx t) (g t)) l).
  { intros l Hl. rewrite map_map. apply map_ext_in. intros t Ht.
    destruct (H t) as [-> ->]; [|reflexivity]. apply in_concat. eauto. }
  clear H. induction ls as [|l ls IH]; [reflexivity|]. destruct ls as [|l' ls].
  - cbn. apply A. now left.
  - change (items_of_lines f (map (map h) (l :: l' :: ls))) with
      (map (fun t => ITok (tx t) (f t)) (map h l) ++ ILb :: items_of_lines f (map (map h) (l' :: ls))).
    rewrite A by now left. rewrite IH; [reflexivity|]. intros; apply A. now right.
Qed.
End Load.
