(** Lemmas about saving whole documents. *)
From Verif Require Import Base ModelTags ModelXml ModelTei ProofXml ProofTags SpecTeiWrite ProofTeiWrite.

Section S.
Variable sp : N -> bool.
Variable node_ok : str -> list (str * str) -> bool.
Variable mapping : list (str * str).
Notation write_token := (write_token sp node_ok mapping).
Notation required_path := (required_path mapping).
Notation main_path := (main_path mapping).
Notation sub_path := (sub_path mapping).
Notation require_path := (require_path node_ok).
Notation require_path_or_below := (require_path_or_below node_ok).
Notation write_pending := (write_pending node_ok).
Notation create_node := (create_node node_ok).
Notation wf := (wf node_ok).

Lemma otoks_lines_items ls : otoks (lines_items ls) = concat ls.
Proof.
  assert (H : forall l, otoks (map Some l) = l).
  { induction l as [|t l IH]; [reflexivity|]. cbn. now f_equal. }
  destruct ls as [|l ls]; [reflexivity|]. unfold lines_items, otoks. rewrite flat_map_app.
  fold (otoks (map Some l)). rewrite H. cbn. f_equal.
  induction ls as [|l' ls IH]; [reflexivity|]. cbn [flat_map app concat].
  rewrite flat_map_app. fold (otoks (map Some l')). now rewrite H, IH.
Qed.

Definition start (name : str) : wstate := mkWs (mkWriter (mkFrame name [] [] []) [] []) [] [].

Lemma pending_tail w pend w' : wf w -> solid w ->
  write_pending [] w pend = Ok w' ->
  pieces w' = pieces w ++ flat_map flat_ev (tail_evs pend) /\ wf w' /\ solid w'.
Proof.
  intros Hw Hs H. destruct pend as [|p pend].
  - injection H as <-. cbn. rewrite app_nil_r. auto.
  - assert (H2 := H). unfold ModelTei.write_pending in H2. cbn [foldM] in H2.
    destruct (require_path_or_below w []) as [w1|] eqn:E1; [|discriminate].
    unfold ModelTei.require_path_or_below in E1. rewrite common_nil in E1.
    assert (E1' := E1).
    apply require_moved in E1 as ((M1 & _) & W1 & P1 & _); [|assumption|now left].
    cbn in M1. rewrite app_nil_r in M1.
    assert (L1 : w_up w1 = []).
    { apply wf_length in W1. rewrite P1 in W1. destruct (w_up w1); [reflexivity|discriminate]. }
    assert (Hh : here w1 = []) by (unfold here; rewrite L1; reflexivity).
    assert (Hpre : prefix (w_path w1) []) by (rewrite P1; apply prefix_refl).
    destruct (pending_settled node_ok [] w1 (p :: pend) W1 Hpre) as (w2 & A & (B & _) & C & D & E).
    assert (w2 = w').
    { unfold ModelTei.write_pending in *. cbn [foldM] in *.
      unfold ModelTei.require_path_or_below at 1 in A. rewrite (common_of_prefix _ _ Hpre), P1 in A.
      rewrite (require_self _ _ _ _ E1') in A. cbn [bind] in A. cbn [bind] in H2. congruence. }
    subst w2. rewrite B, M1, Hh. split; [reflexivity|]. split; [exact C|].
    left. apply wf_length in C. rewrite D, P1 in C. destruct (w_up w'); [reflexivity|discriminate].
Qed.

Lemma lines_to_tei_layout name ls r :
  lines_to_tei sp node_ok mapping name ls = Ok r ->
  exists evs W,
    flat [] r = flat_map flat_ev evs /\
    ev_toks evs = concat ls /\
    map fst W = words_of sp (concat ls) /\
    ev_words sp evs = map (fun x => (snd (fst x), snd x)) W /\
    ev_skeleton sp evs = skeleton sp (lines_items ls) /\
    linked node_ok mapping [] [] [] W /\
    placed sp [] evs /\ spaced sp mapping [] evs.
Proof.
  unfold lines_to_tei. intros H. fold (start name) in H. rewrite write_lines_steps in H.
  destruct (foldM _ _ _) as [s|] eqn:E1; [|discriminate]. cbn [bind] in H.
  destruct (write_pending [] (s_w s) (s_pend s)) as [w|] eqn:E2; [|discriminate]. cbn [bind] in H.
  destruct (climb _ _ _) as [[cur ups]|] eqn:E3; [|discriminate]. cbn [bind fst] in H.
  injection H as <-.
  assert (Hw0 : wf (s_w (start name))) by constructor.
  assert (Hs0 : solid (s_w (start name))) by now left.
  destruct (run node_ok sp mapping _ _ _ [] E1 Hw0 Hs0 (Forall_nil _)) as
    (evs & W & A1 & A2 & A3 & A4 & A5 & A6 & A7 & A8 & A9 & A10 & A11); [intros c []|].
  destruct (pending_tail _ _ _ A2 A3 E2) as (B1 & B2 & B3).
  assert (Hn : length (w_up w) = 0 \/ nonvoid (w_cur w)).
  { destruct B3 as [B3|B3]; [left; now rewrite B3|now right]. }
  destruct (climb_flat _ _ _ _ _ Hn E3) as (C1 & _ & C3 & _).
  assert (ups = []) by (destruct ups; [reflexivity|cbn in C3; lia]). subst ups.
  exists (evs ++ tail_evs (s_pend s)), W.
  destruct (ev_spaces sp (s_pend s) [] A4) as (X1 & X2 & X3).
  split; [|split; [|split; [|split; [|split; [|split; [|split]]]]]].
  - unfold close. rewrite flat_eq. change (map (PChar []) (f_text cur) ++ flat_kids [] 0 (f_kids cur)) with (wflat cur []).
    rewrite C1. change (wflat (w_cur w) (w_up w)) with (pieces w). rewrite B1, A1, flat_map_app. reflexivity.
  - unfold ev_toks. rewrite flat_map_app. fold (ev_toks evs). fold (ev_toks (tail_evs (s_pend s))).
    unfold tail_evs. rewrite X3, A5. cbn. apply otoks_lines_items.
  - rewrite A6, otoks_lines_items. reflexivity.
  - unfold ev_words in *. rewrite flat_map_app. unfold tail_evs. rewrite X1, app_nil_r. exact A7.
  - unfold ev_skeleton in *. rewrite flat_map_app. unfold tail_evs. rewrite X2, app_nil_r. exact A8.
  - exact A9.
  - exact A10.
  - apply A11. now left.
Qed.

(* ---------------------------------------------------------------- *)
(** when saving succeeds *)
Notation creatable := (creatable node_ok).
Lemma creatable_prefix p q : prefix p q -> creatable q -> creatable p.
Proof. intros [r ->] H. apply Forall_app in H. tauto. Qed.

Lemma require_ok w req : wf w -> creatable req -> exists w', require_path w req = Ok w'.
Proof.
  intros Hw Hc. unfold ModelTei.require_path. destruct (path_eqb _ _); [eauto|].
  pose proof (wf_length _ _ Hw) as L.
  destruct (climb_ok (length (w_path w) - length (common_path (w_path w) req)) (w_cur w) (w_up w)) as [cu E]; [lia|].
  rewrite E. cbn [bind].
  destruct (descend_ok node_ok (skipn (length (common_path (w_path w) req)) req) (fst cu) (snd cu)) as [cu' E'].
  { rewrite <- (firstn_skipn (length (common_path (w_path w) req)) req) in Hc. apply Forall_app in Hc. tauto. }
  rewrite E'. cbn [bind]. eauto.
Qed.
Lemma wf_creatable w : wf w -> creatable (w_path w).
Proof.
  unfold ProofTeiWrite.wf. induction 1 as [|f x p l Hm HF IH]; constructor; [|exact IH].
  exists (snd x). exact Hm.
Qed.
Lemma pending_ok req w pend : wf w -> safe w req -> exists w', write_pending req w pend = Ok w'.
Proof.
  intros Hw Hs. destruct pend as [|p pend]; [eexists; reflexivity|].
  assert (Hc : creatable (common_path (w_path w) req)).
  { eapply creatable_prefix; [apply common_prefix_l|]. now apply wf_creatable. }
  destruct (require_ok w _ Hw Hc) as [w1 E1]. assert (E1' := E1).
  apply require_moved in E1 as (_ & W1 & P1 & _); [|assumption|].
  2:{ destruct Hs as [Hs|Hs]; [now left|]. right. rewrite (common_of_prefix _ _ Hs). apply prefix_refl. }
  assert (Hp1 : prefix (w_path w1) req) by (rewrite P1; apply common_prefix_r).
  destruct (pending_settled node_ok req w1 (p :: pend) W1 Hp1) as (w2 & A & _).
  exists w2. unfold ModelTei.write_pending in *. cbn [foldM] in *.
  unfold ModelTei.require_path_or_below at 1 in A. rewrite (common_of_prefix _ _ Hp1), P1 in A.
  rewrite (require_self _ _ _ _ E1') in A. cbn [bind] in A.
  unfold ModelTei.require_path_or_below at 1. rewrite E1'. cbn [bind]. exact A.
Qed.

Lemma word_ok s t : wf (s_w s) -> solid (s_w s) -> creatable (required_path t) ->
  exists s', write_token s t = Ok s'.
Proof.
  intros Hw Hs Hc. unfold ModelTei.write_token.
  destruct (split_tag_prefix (main_full_tag t)) as [mp mv]. cbv zeta.
  destruct (is_space sp t); [eauto|].
  assert (S1 : exists w1,
    (if is_b mp then require_path (s_w s) (removelast (main_path t))
     else if omem mv (s_reset s) then require_path (s_w s) []
     else if is_b (fst (split_tag_prefix (sub_full_tag t)))
       then require_path_or_below (s_w s) (match sub_path t with Some p => removelast p | None => [] end)
     else Ok (s_w s)) = Ok w1 /\ wf w1 /\ safe w1 (required_path t)).
  { destruct (is_b mp).
    { assert (Hpre : prefix (removelast (main_path t)) (required_path t)).
      { eapply prefix_trans; [apply prefix_removelast|apply main_prefix_required]. }
      destruct (require_ok (s_w s) (removelast (main_path t)) Hw (creatable_prefix _ _ Hpre Hc)) as [w1 E1].
      exists w1. split; [exact E1|]. apply require_moved in E1 as (_ & W & P & _); auto.
      split; [exact W|]. right. now rewrite P. }
    destruct (omem mv (s_reset s)).
    { destruct (require_ok (s_w s) [] Hw (Forall_nil _)) as [w1 E1].
      exists w1. split; [exact E1|]. apply require_moved in E1 as (_ & W & P & S); auto.
      split; [exact W|]. left. apply S; [apply prefix_nil|exact Hs]. }
    destruct (is_b (fst (split_tag_prefix (sub_full_tag t)))).
    { unfold ModelTei.require_path_or_below.
      set (q0 := match sub_path t with Some p => removelast p | None => [] end).
      assert (Hc0 : creatable (common_path (w_path (s_w s)) q0)).
      { eapply creatable_prefix; [apply common_prefix_l|]. now apply wf_creatable. }
      destruct (require_ok (s_w s) _ Hw Hc0) as [w1 E1].
      exists w1. split; [exact E1|]. apply require_moved in E1 as (_ & W & P & S); auto.
      split; [exact W|]. left. apply S; [apply common_prefix_l|exact Hs]. }
    exists (s_w s). split; [reflexivity|]. split; [exact Hw|now left]. }
  destruct S1 as (w1 & E1 & W1 & Sf1). rewrite E1. cbn [bind].
  destruct (pending_ok (required_path t) w1 (s_pend s) W1 Sf1) as [w2 E2].
  rewrite E2. cbn [bind].
  assert (exists w3, require_path w2 (required_path t) = Ok w3) as [w3 E3].
  { apply require_ok; [|exact Hc].
    destruct (s_pend s) as [|p pend] eqn:Ep; [injection E2 as <-; exact W1|].
    (* w2 is well formed: reach it through the settled state *)
    assert (Hc1 : creatable (common_path (w_path w1) (required_path t))).
    { eapply creatable_prefix; [apply common_prefix_l|]. now apply wf_creatable. }
    destruct (require_ok w1 _ W1 Hc1) as [w1' E1'']. assert (E := E1'').
    apply require_moved in E as (_ & W1' & P1 & _); [|assumption|].
    2:{ destruct Sf1 as [Hss|Hss]; [now left|]. right. rewrite (common_of_prefix _ _ Hss). apply prefix_refl. }
    assert (Hp1 : prefix (w_path w1') (required_path t)) by (rewrite P1; apply common_prefix_r).
    destruct (pending_settled node_ok (required_path t) w1' (p :: pend) W1' Hp1) as (w2' & A & _ & C & _).
    assert (w2' = w2); [|subst; exact C].
    unfold ModelTei.write_pending in *. cbn [foldM] in *.
    unfold ModelTei.require_path_or_below at 1 in A. rewrite (common_of_prefix _ _ Hp1), P1 in A.
    rewrite (require_self _ _ _ _ E1'') in A. cbn [bind] in A.
    unfold ModelTei.require_path_or_below at 1 in E2. rewrite E1'' in E2. cbn [bind] in E2. congruence. }
  rewrite E3. cbn [bind]. eauto.
Qed.

Lemma steps_ok items : forall s,
  wf (s_w s) -> solid (s_w s) -> Forall (fun t => is_space sp t = true) (s_pend s) ->
  (forall t, In t (otoks items) -> is_space sp t = false -> creatable (required_path t)) ->
  exists s', foldM (step node_ok sp mapping) s items = Ok s'.
Proof.
  induction items as [|o items IH]; intros s Hw Hs Hp Hc; [eexists; reflexivity|].
  cbn [foldM].
  assert (exists s1, step node_ok sp mapping s o = Ok s1) as [s1 E1].
  { destruct o as [t|]; [|eexists; reflexivity]. cbn [step]. destruct (is_space sp t) eqn:Et.
    - unfold ModelTei.write_token. rewrite Et. destruct (split_tag_prefix _). eauto.
    - apply word_ok; auto. apply Hc; [now left|exact Et]. }
  rewrite E1. cbn [bind].
  assert (E1' : foldM (step node_ok sp mapping) s [o] = Ok s1) by (cbn [foldM]; rewrite E1; reflexivity).
  destruct (run node_ok sp mapping [o] s s1 [] E1' Hw Hs Hp) as
    (evs & W & _ & A2 & A3 & A4 & _); [intros c []|].
  apply IH; auto. intros t Ht. apply Hc. cbn. destruct o; cbn; auto.
Qed.

Lemma linked_creatable W : forall path a earlier,
  linked node_ok mapping path a earlier W -> Forall (fun x => creatable (required_path (snd (fst x)))) W.
Proof.
  induction W as [|[[rs t] b] W IH]; intros path a earlier H; [constructor|].
  cbn [linked] in H. destruct H as (H1 & _ & _ & _ & _ & H2). constructor; [|eapply IH; exact H2].
  cbn [fst snd]. clear -H1. induction H1; constructor; eauto.
Qed.
Lemma words_go_in rs l t : In t (map snd (words_go sp rs l)) <-> In t l /\ is_space sp t = false.
Proof.
  revert rs. induction l as [|x l IH]; intros rs; cbn; [tauto|].
  destruct (is_space sp x) eqn:E.
  - rewrite IH. split; [tauto|]. intros [[->|H] H2]; [congruence|tauto].
  - cbn. rewrite IH. split; [intros [->|H]; tauto|]. tauto.
Qed.

Lemma lines_to_tei_ok name ls :
  (exists r, lines_to_tei sp node_ok mapping name ls = Ok r) <->
  (forall t, In t (concat ls) -> is_space sp t = false -> creatable (required_path t)).
Proof.
  split.
  - intros [r H] t Ht Hs. apply lines_to_tei_layout in H as (evs & W & _ & _ & H1 & _ & _ & H2 & _).
    apply linked_creatable in H2. rewrite Forall_forall in H2.
    assert (Hin : In t (map snd (map fst W))).
    { rewrite H1. apply words_go_in. auto. }
    apply in_map_iff in Hin as ([rs t'] & <- & Hin). apply in_map_iff in Hin as ([[rs2 t2] b] & E & Hin).
    cbn in E. injection E as -> ->. apply (H2 _ Hin).
  - intros H. unfold lines_to_tei. fold (start name). rewrite write_lines_steps.
    assert (Hw0 : wf (s_w (start name))) by constructor.
    assert (Hs0 : solid (s_w (start name))) by now left.
    destruct (steps_ok (lines_items ls) (start name) Hw0 Hs0 (Forall_nil _)) as [s E1].
    { rewrite otoks_lines_items. exact H. }
    rewrite E1. cbn [bind].
    destruct (run node_ok sp mapping _ _ _ [] E1 Hw0 Hs0 (Forall_nil _)) as
      (evs & W & A1 & A2 & A3 & A4 & _); [intros c []|].
    destruct (pending_ok [] (s_w s) (s_pend s) A2 (or_introl A3)) as [w E2]. rewrite E2. cbn [bind].
    destruct (climb_ok (length (w_up w)) (w_cur w) (w_up w)) as [cu E3]; [lia|]. rewrite E3. cbn [bind]. eauto.
Qed.

(* ---------------------------------------------------------------- *)
(** text of pieces *)
Definition piece_text (p : piece) : str := match p with PChar _ c => [c] | PLb _ => [] end.
Lemma chars_text a s : flat_map piece_text (map (PChar a) s) = s.
Proof. induction s as [|c s IH]; cbn; [reflexivity|]. now rewrite IH. Qed.
Lemma flat_content : forall e a, flat_map piece_text (flat a e) = content e.
Proof.
  induction e as [n at_ t cs tl IH|tl] using xml_ind'; intros a; [|reflexivity].
  rewrite flat_eq, flat_map_app, chars_text. cbn [content]. f_equal.
  generalize 0. induction IH as [|c cs Hc HF IHc]; intros i; [reflexivity|].
  cbn [flat_kids flat_map]. rewrite !flat_map_app, chars_text, IHc, <- app_assoc. f_equal.
  destruct (is_break c) eqn:E; [|apply Hc].
  destruct c as [cn [|] [|] [|] ctl|]; try discriminate. reflexivity.
Qed.
Lemma evs_text evs : flat_map piece_text (flat_map flat_ev evs) = flat_map tx (ev_toks evs).
Proof.
  induction evs as [|[t a|a] evs IH]; [reflexivity| |exact IH].
  cbn [flat_map flat_ev ev_toks app]. rewrite flat_map_app, chars_text, IH. reflexivity.
Qed.

(** line breaks *)
Definition is_lb_piece (p : piece) : bool := match p with PLb _ => true | _ => false end.
Definition lb_pieces (l : list piece) : nat := length (filter is_lb_piece l).
Lemma lb_pieces_app l1 l2 : lb_pieces (l1 ++ l2) = lb_pieces l1 + lb_pieces l2.
Proof. unfold lb_pieces. now rewrite filter_app, app_length. Qed.
Lemma lb_pieces_chars a s : lb_pieces (map (PChar a) s) = 0.
Proof. unfold lb_pieces. induction s; cbn; auto. Qed.

(** every [lb] element is an (empty) line break *)
Fixpoint tidy (e : xml) : bool :=
  match e with
  | Elem _ _ _ cs _ => forallb (fun c => if is_lb c then is_break c else tidy c) cs
  | Misc _ => true
  end.
Lemma break_is_lb c : is_break c = true -> is_lb c = true.
Proof.
  destruct c as [n [|] [|] [|] tl|]; try discriminate. cbn. auto.
Qed.
Lemma count_tidy : forall e a, tidy e = true -> count_name LB e = lb_pieces (flat a e).
Proof.
  induction e as [n at_ t cs tl IH|tl] using xml_ind'; intros a Ht; [|reflexivity].
  rewrite flat_eq, lb_pieces_app, lb_pieces_chars. cbn [count_name plus]. cbn [tidy] in Ht.
  assert (G : forall i, list_sum (map (fun c : xml => (match c with
      | Elem m _ _ _ _ => if streq m LB then 1 else 0 | Misc _ => 0 end) + count_name LB c) cs)
      = lb_pieces (flat_kids a i cs)); [|apply G].
  induction IH as [|c cs Hc HF IHc]; intros i; [reflexivity|].
  cbn [map list_sum fold_right flat_kids].
  cbn [forallb] in Ht. apply andb_true_iff in Ht as [Htc Ht].
  rewrite !lb_pieces_app, lb_pieces_chars. unfold list_sum in IHc. rewrite (IHc Ht (S i)).
  destruct (is_lb c) eqn:El.
  - rewrite Htc. destruct c as [cn [|] [|] [|] ctl|]; try discriminate. cbn [is_lb] in El. rewrite El. reflexivity.
  - destruct (is_break c) eqn:Eb; [apply break_is_lb in Eb; congruence|].
    rewrite (Hc (a ++ [(i, node_of c)]) Htc).
    destruct c as [cn ca ct cc ctl|]; [|reflexivity]. cbn [is_lb] in El. rewrite El. reflexivity.
Qed.
Lemma evs_lb evs : lb_pieces (flat_map flat_ev evs) =
  length (filter (fun o : option tok => match o with None => true | _ => false end) (ev_skeleton sp evs)).
Proof.
  induction evs as [|[t a|a] evs IH]; [reflexivity| |].
  - cbn [flat_map flat_ev ev_skeleton]. rewrite lb_pieces_app, lb_pieces_chars, IH.
    destruct (is_space sp t); reflexivity.
  - cbn. f_equal. exact IH.
Qed.
Lemma skeleton_lb ls : length (filter (fun o : option tok => match o with None => true | _ => false end)
    (skeleton sp (lines_items ls))) = pred (length ls).
Proof.
  assert (H : forall l : line, length (filter (fun o : option tok => match o with None => true | _ => false end)
    (skeleton sp (map Some l))) = 0).
  { induction l as [|t l IH]; [reflexivity|]. cbn. destruct (is_space sp t); exact IH. }
  destruct ls as [|l ls]; [reflexivity|]. unfold lines_items, skeleton.
  rewrite filter_app, filter_app, app_length. fold (skeleton sp (map Some l)). rewrite H. cbn [plus pred length].
  induction ls as [|l' ls IH]; [reflexivity|].
  cbn [flat_map]. rewrite !filter_app, app_length. rewrite IH. cbn. f_equal.
  fold (skeleton sp (map Some l')). now rewrite H.
Qed.

(** the writer keeps the tree tidy if no path contains an [lb] element *)
Notation no_lb := (no_lb node_ok).
Definition kid_ok (c : xml) : bool := if is_lb c then is_break c else tidy c.
Definition tidy_frame (f : frame) : Prop := forallb kid_ok (f_kids f) = true.
Definition tidy_stack (cur : frame) (ups : list frame) : Prop :=
  tidy_frame cur /\ Forall tidy_frame ups /\
  (match ups with [] => True | _ => f_name cur <> LB end) /\
  (match ups with [] => True | _ => Forall (fun f => f_name f <> LB) (removelast ups) end).

Lemma tidy_close p cur : tidy_frame p -> tidy_frame cur -> f_name cur <> LB -> tidy_frame (add_kid p (close cur)).
Proof.
  intros Hp Hc Hn. unfold tidy_frame. cbn [add_kid f_kids]. rewrite forallb_app. rewrite Hp. cbn [forallb].
  unfold kid_ok at 1. unfold close. cbn [is_lb]. apply streq_false in Hn. rewrite Hn. cbn [tidy].
  unfold tidy_frame in Hc. unfold kid_ok in Hc. now rewrite Hc.
Qed.
Lemma climb_tidy n : forall cur ups cu, tidy_stack cur ups -> climb n cur ups = Ok cu -> tidy_stack (fst cu) (snd cu).
Proof.
  induction n as [|n IH]; intros cur ups cu Ht H; cbn in H.
  - injection H as <-. exact Ht.
  - destruct ups as [|p ups]; [discriminate|]. apply IH in H; [exact H|].
    destruct Ht as (T1 & T2 & T3 & T4). inversion T2; subst.
    split; [now apply tidy_close|]. split; [assumption|].
    destruct ups as [|q ups]; [auto|].
    change (removelast (p :: q :: ups)) with (p :: removelast (q :: ups)) in T4.
    inversion T4; subst. split; assumption.
Qed.
Lemma descend_tidy frags : forall cur ups cu, tidy_stack cur ups -> no_lb frags ->
  descend node_ok frags cur ups = Ok cu -> tidy_stack (fst cu) (snd cu).
Proof.
  induction frags as [|f frags IH]; intros cur ups cu Ht Hn H; cbn in H.
  - injection H as <-. exact Ht.
  - destruct (create_node f) as [na|] eqn:E; [|discriminate]. cbn [bind] in H.
    inversion Hn as [|? ? Hf Hn']; subst. eapply IH; [|exact Hn'|exact H].
    destruct Ht as (T1 & T2 & T3 & T4). split; [reflexivity|]. split; [now constructor|].
    split; [now apply Hf|]. destruct ups as [|q ups]; [constructor|].
    change (removelast (cur :: q :: ups)) with (cur :: removelast (q :: ups)). now constructor.
Qed.
Definition tidy_w (w : writer) : Prop := tidy_stack (w_cur w) (w_up w).
Lemma require_tidy w req w' : tidy_w w -> no_lb req -> require_path w req = Ok w' -> tidy_w w'.
Proof.
  unfold ModelTei.require_path. intros Ht Hn H. destruct (path_eqb _ _).
  - injection H as <-. exact Ht.
  - destruct (climb _ _ _) as [cu|] eqn:E1; [|discriminate]. cbn [bind] in H.
    destruct (descend _ _ _) as [cu'|] eqn:E2; [|discriminate]. cbn [bind] in H. injection H as <-.
    apply (climb_tidy _ _ _ _ Ht) in E1. eapply descend_tidy; [exact E1| |exact E2].
    rewrite <- (firstn_skipn (length (common_path (w_path w) req)) req) in Hn. apply Forall_app in Hn. tauto.
Qed.
Lemma kid_ok_add_tail c t : kid_ok (add_tail c t) = kid_ok c.
Proof. destruct c; reflexivity. Qed.
Lemma append_text_tidy w t : tidy_w w -> tidy_w (w_append_text w t).
Proof.
  intros (T1 & T2 & T3 & T4). unfold tidy_w. cbn. 
  assert (Hn : f_name (frame_append_text (w_cur w) t) = f_name (w_cur w)).
  { unfold frame_append_text. destruct (f_kids (w_cur w)); reflexivity. }
  split; [|split; [exact T2|split; [|exact T4]]].
  - unfold tidy_frame, frame_append_text in *. destruct (f_kids (w_cur w)) as [|k ks] eqn:E; [reflexivity|].
    cbn [f_kids]. revert T1. clear. generalize (k :: ks) as l. induction l as [|c l IH]; [auto|].
    destruct l as [|c' l].
    + cbn. now rewrite kid_ok_add_tail.
    + change (add_last_tail (c :: c' :: l) t) with (c :: add_last_tail (c' :: l) t).
      cbn [forallb] in *. rewrite !andb_true_iff in *. intros [H1 H2]. split; [exact H1|].
      apply IH. exact H2.
  - rewrite Hn. exact T3.
Qed.
Lemma append_lb_tidy w : tidy_w w -> tidy_w (w_append w lb_elem).
Proof.
  intros (T1 & T2 & T3 & T4). unfold tidy_w. cbn. split; [|auto].
  unfold tidy_frame in *. cbn. rewrite forallb_app, T1. reflexivity.
Qed.
Lemma no_lb_prefix p q : prefix p q -> no_lb q -> no_lb p.
Proof. intros [r ->] H. apply Forall_app in H. tauto. Qed.
Lemma pending_tidy req pend : forall w w', tidy_w w -> no_lb req -> write_pending req w pend = Ok w' -> tidy_w w'.
Proof.
  unfold ModelTei.write_pending. induction pend as [|p pend IH]; intros w w' Ht Hn H.
  - injection H as <-. exact Ht.
  - cbn [foldM] in H. destruct (require_path_or_below w req) as [w1|] eqn:E; [|discriminate]. cbn [bind] in H.
    eapply IH; [|exact Hn|exact H]. apply append_text_tidy. eapply require_tidy; [exact Ht| |exact E].
    eapply no_lb_prefix; [apply common_prefix_r|exact Hn].
Qed.
Lemma step_tidy s o s' : tidy_w (s_w s) ->
  (forall t, o = Some t -> is_space sp t = false -> no_lb (required_path t)) ->
  step node_ok sp mapping s o = Ok s' -> tidy_w (s_w s').
Proof.
  intros Ht Hn H. destruct o as [t|]; [|injection H as <-; now apply append_lb_tidy].
  cbn [step] in H. unfold ModelTei.write_token in H.
  destruct (split_tag_prefix (main_full_tag t)) as [mp mv]. cbv zeta in H.
  destruct (is_space sp t) eqn:Et; [injection H as <-; exact Ht|].
  specialize (Hn t eq_refl Et).
  match type of H with bind ?x _ = _ => destruct x as [w1|] eqn:E1; [|discriminate] end. cbn [bind] in H.
  destruct (write_pending _ _ _) as [w2|] eqn:E2; [|discriminate]. cbn [bind] in H.
  destruct (require_path w2 _) as [w3|] eqn:E3; [|discriminate]. cbn [bind] in H.
  injection H as <-. cbn [s_w]. apply append_text_tidy. eapply require_tidy; [|exact Hn|exact E3].
  eapply pending_tidy; [|exact Hn|exact E2].
  destruct (is_b mp).
  { eapply require_tidy; [exact Ht| |exact E1]. eapply no_lb_prefix; [|exact Hn].
    eapply prefix_trans; [apply prefix_removelast|apply main_prefix_required]. }
  destruct (omem mv (s_reset s)).
  { eapply require_tidy; [exact Ht| |exact E1]. constructor. }
  destruct (is_b _).
  { eapply require_tidy; [exact Ht| |exact E1]. eapply no_lb_prefix; [|exact Hn].
    eapply prefix_trans; [apply common_prefix_r|].
    unfold ModelTei.required_path. destruct (sub_path t); [apply prefix_removelast|apply prefix_nil]. }
  injection E1 as <-. exact Ht.
Qed.
Lemma steps_tidy items : forall s s', tidy_w (s_w s) ->
  (forall t, In t (otoks items) -> is_space sp t = false -> no_lb (required_path t)) ->
  foldM (step node_ok sp mapping) s items = Ok s' -> tidy_w (s_w s').
Proof.
  induction items as [|o items IH]; intros s s' Ht Hn H.
  - injection H as <-. exact Ht.
  - cbn [foldM] in H. destruct (step node_ok sp mapping s o) as [s1|] eqn:E; [|discriminate]. cbn [bind] in H.
    eapply IH; [| |exact H].
    + eapply step_tidy; [exact Ht| |exact E]. intros t -> Hs. apply Hn; [now left|exact Hs].
    + intros t Hin. apply Hn. cbn. destruct o; cbn; auto.
Qed.
Lemma lines_to_tei_tidy name ls r :
  (forall t, In t (concat ls) -> is_space sp t = false -> no_lb (required_path t)) ->
  lines_to_tei sp node_ok mapping name ls = Ok r -> tidy r = true.
Proof.
  intros Hn H. unfold lines_to_tei in H. fold (start name) in H. rewrite write_lines_steps in H.
  destruct (foldM _ _ _) as [s|] eqn:E1; [|discriminate]. cbn [bind] in H.
  destruct (write_pending [] (s_w s) (s_pend s)) as [w|] eqn:E2; [|discriminate]. cbn [bind] in H.
  destruct (climb _ _ _) as [cu|] eqn:E3; [|discriminate]. cbn [bind] in H. injection H as <-.
  assert (T0 : tidy_w (s_w (start name))) by (repeat split; constructor).
  apply (steps_tidy _ _ _ T0) in E1; [|rewrite otoks_lines_items; exact Hn].
  apply (pending_tidy _ _ _ _ E1) in E2; [|constructor].
  apply (climb_tidy _ _ _ _ E2) in E3. destruct E3 as (T & _). exact T.
Qed.
End S.
