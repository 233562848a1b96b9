(** Lemmas about the writer: the tree under construction as a sequence of pieces. *)
From Verif Require Import Base ModelTags ModelXml ModelTei ProofXml ProofTags SpecTeiWrite.

Fixpoint flat_kids (a : addr) (i : nat) (cs : list xml) : list piece :=
  match cs with
  | [] => []
  | c :: cs' =>
      (if is_break c then [PLb a] else flat (a ++ [(i, node_of c)]) c)
      ++ map (PChar a) (xtail c) ++ flat_kids a (S i) cs'
  end.
Lemma flat_eq a n at_ t cs tl : flat a (Elem n at_ t cs tl) = map (PChar a) t ++ flat_kids a 0 cs.
Proof.
  cbn [flat]. f_equal. generalize 0. induction cs as [|c cs IH]; intros i; [reflexivity|].
  cbn [flat_kids]. now rewrite IH.
Qed.
Lemma flat_kids_app a cs1 cs2 : forall i,
  flat_kids a i (cs1 ++ cs2) = flat_kids a i cs1 ++ flat_kids a (i + length cs1) cs2.
Proof.
  induction cs1 as [|c cs1 IH]; intros i; cbn [app flat_kids length].
  - now rewrite Nat.add_0_r.
  - rewrite IH, <- !app_assoc. do 3 f_equal. f_equal. lia.
Qed.

(* ---------------------------------------------------------------- *)
(** paths *)
Lemma common_prefix_l p q : prefix (common_path p q) p.
Proof.
  revert q. induction p as [|a p IH]; intros [|b q]; cbn; try (eexists; reflexivity).
  destruct (streq a b); [|eexists; reflexivity].
  destruct (IH q) as [r Hr]. exists r. cbn. now f_equal.
Qed.
Lemma common_sym p q : common_path p q = common_path q p.
Proof.
  revert q. induction p as [|a p IH]; intros [|b q]; cbn; auto.
  destruct (streq a b) eqn:E.
  - apply streq_true in E. subst. rewrite streq_refl. now f_equal.
  - destruct (streq b a) eqn:E2; [|reflexivity]. apply streq_true in E2. subst.
    rewrite streq_refl in E. discriminate.
Qed.
Lemma common_prefix_r p q : prefix (common_path p q) q.
Proof. rewrite common_sym. apply common_prefix_l. Qed.
Lemma common_greatest r p q : prefix r p -> prefix r q -> prefix r (common_path p q).
Proof.
  intros [x ->] [y ->]. induction r as [|a r IH]; cbn.
  - eexists; reflexivity.
  - rewrite streq_refl. destruct IH as [z Hz]. exists z. cbn. now f_equal.
Qed.
Lemma common_of_prefix p q : prefix p q -> common_path p q = p.
Proof.
  intros [r ->]. induction p as [|a p IH]; cbn; [now destruct r|]. now rewrite streq_refl, IH.
Qed.
Lemma prefix_length {A} (p l : list A) : prefix p l -> length p <= length l.
Proof. intros [r ->]. rewrite app_length. lia. Qed.
Lemma prefix_firstn {A} (p l : list A) : prefix p l -> firstn (length p) l = p.
Proof. intros [r ->]. rewrite firstn_app, firstn_all, Nat.sub_diag. cbn. apply app_nil_r. Qed.
Lemma prefix_skipn {A} (p l : list A) : prefix p l -> l = p ++ skipn (length p) l.
Proof. intros H. rewrite <- (prefix_firstn p l H) at 1. symmetry. apply firstn_skipn. Qed.
Lemma prefix_refl {A} (l : list A) : prefix l l.
Proof. exists []. now rewrite app_nil_r. Qed.
Lemma prefix_trans {A} (a b c : list A) : prefix a b -> prefix b c -> prefix a c.
Proof. intros [x ->] [y ->]. exists (x ++ y). now rewrite app_assoc. Qed.
Lemma prefix_nil {A} (l : list A) : prefix [] l.
Proof. exists l. reflexivity. Qed.
Lemma prefix_firstn_self {A} n (l : list A) : prefix (firstn n l) l.
Proof. exists (skipn n l). now rewrite firstn_skipn. Qed.
Lemma prefix_removelast {A} (l : list A) : prefix (removelast l) l.
Proof.
  destruct l as [|x l]; [apply prefix_nil|].
  exists [last (x :: l) x]. apply app_removelast_last. discriminate.
Qed.
Lemma removelast_length {A} (l : list A) : length (removelast l) = length l - 1.
Proof.
  destruct l as [|x l]; [reflexivity|].
  rewrite (app_removelast_last x (l := x :: l)) at 2 by discriminate.
  rewrite app_length. cbn. lia.
Qed.
Lemma path_eqb_true p q : path_eqb p q = true <-> p = q.
Proof. unfold path_eqb. destruct (list_eq_dec str_eq_dec p q); split; intros; congruence. Qed.
Lemma starts_prefix p q : path_starts_with p q = true <-> prefix p q.
Proof.
  unfold path_starts_with. rewrite path_eqb_true. split.
  - intros H. rewrite <- H. apply common_prefix_r.
  - apply common_of_prefix.
Qed.

(* ---------------------------------------------------------------- *)
(** The writer's stack as pieces. *)
Definition fnode (f : frame) : node := (f_name f, f_attrib f).
Definition flat_frame (a : addr) (f : frame) : list piece :=
  map (PChar a) (f_text f) ++ flat_kids a 0 (f_kids f).

Fixpoint waddr (cur : frame) (ups : list frame) : addr :=
  match ups with
  | [] => []
  | p :: ups' => waddr p ups' ++ [(length (f_kids p), fnode cur)]
  end.
Fixpoint wflat (cur : frame) (ups : list frame) : list piece :=
  match ups with
  | [] => flat_frame [] cur
  | p :: ups' => wflat p ups' ++ flat_frame (waddr cur ups) cur
  end.

Lemma waddr_node f g ups : fnode f = fnode g -> waddr f ups = waddr g ups.
Proof. intros H. destruct ups; cbn; [reflexivity|]. now rewrite H. Qed.
Lemma waddr_length cur ups : length (waddr cur ups) = length ups.
Proof.
  revert cur. induction ups as [|p ups IH]; intros cur; cbn; [reflexivity|].
  rewrite app_length, IH. cbn. lia.
Qed.

Definition nonvoid (f : frame) : Prop := is_break (close f) = false.

Lemma add_kid_nonvoid f k : nonvoid (add_kid f k).
Proof.
  unfold nonvoid, close, add_kid. cbn. destruct (f_attrib f), (f_text f); try reflexivity.
  destruct (f_kids f); reflexivity.
Qed.

Lemma wflat_add_kid p k ups :
  wflat (add_kid p k) ups =
  wflat p ups ++ (if is_break k then [PLb (waddr p ups)]
                  else flat (waddr p ups ++ [(length (f_kids p), node_of k)]) k)
              ++ map (PChar (waddr p ups)) (xtail k).
Proof.
  assert (E : forall a, flat_frame a (add_kid p k) = flat_frame a p ++
     (if is_break k then [PLb a] else flat (a ++ [(length (f_kids p), node_of k)]) k)
     ++ map (PChar a) (xtail k)).
  { intros a. unfold flat_frame. cbn. rewrite flat_kids_app. cbn. rewrite app_nil_r, <- app_assoc. reflexivity. }
  destruct ups as [|q ups]; cbn [wflat].
  - apply E.
  - rewrite E, <- app_assoc. rewrite (waddr_node (add_kid p k) p) by reflexivity. reflexivity.
Qed.

Lemma wflat_close cur p ups : nonvoid cur ->
  wflat (add_kid p (close cur)) ups = wflat cur (p :: ups).
Proof.
  intros H. rewrite wflat_add_kid. unfold nonvoid in H. rewrite H. cbn [wflat waddr].
  change (xtail (close cur)) with (@nil N). cbn [map]. rewrite app_nil_r. f_equal.
  unfold close. rewrite flat_eq. reflexivity.
Qed.

Lemma climb_flat n : forall cur ups cur' ups',
  (n = 0 \/ nonvoid cur) ->
  climb n cur ups = Ok (cur', ups') ->
  wflat cur' ups' = wflat cur ups /\ ups = firstn n ups ++ skipn n ups /\
  length ups = n + length ups' /\
  waddr cur' ups' = firstn (length ups') (waddr cur ups) /\
  (ups' = [] \/ nonvoid cur' \/ n = 0).
Proof.
  induction n as [|n IH]; intros cur ups cur' ups' Hv H; cbn in H.
  - injection H as <- <-. repeat split; auto. symmetry. rewrite <- (waddr_length cur ups). apply firstn_all.
  - destruct ups as [|p ups]; [discriminate|].
    destruct Hv as [Hv|Hv]; [discriminate|].
    destruct (IH (add_kid p (close cur)) ups cur' ups') as (H1 & H2 & H3 & H4 & H5); auto.
    { right. apply add_kid_nonvoid. }
    rewrite wflat_close in H1 by assumption. repeat split; auto.
    + cbn. now f_equal.
    + cbn. lia.
    + rewrite H4. cbn [waddr]. rewrite firstn_app, waddr_length.
      replace (length ups' - length ups) with 0 by lia. cbn. rewrite app_nil_r.
      f_equal. apply waddr_node. reflexivity.
    + destruct H5 as [H5|[H5|H5]]; auto. subst n. cbn in H. injection H as <- <-.
      right. left. apply add_kid_nonvoid.
Qed.
Lemma climb_ok n : forall cur ups, n <= length ups -> exists cu, climb n cur ups = Ok cu.
Proof.
  induction n as [|n IH]; intros cur ups H; cbn; [eauto|].
  destruct ups as [|p ups]; cbn in H; [lia|]. apply IH. lia.
Qed.

Section W.
Variable node_ok : str -> list (str * str) -> bool.
Notation create_node := (create_node node_ok).
Notation descend := (descend node_ok).
Notation require_path := (require_path node_ok).
Notation require_path_or_below := (require_path_or_below node_ok).
Notation write_pending := (write_pending node_ok).

Lemma wflat_new na cur ups : wflat (mkFrame (fst na) (snd na) [] []) (cur :: ups) = wflat cur ups.
Proof. cbn. apply app_nil_r. Qed.

(** [made frag x]: [x] is the address step of an element created for [frag] *)
Definition made (frag : str) (x : nat * node) : Prop := create_node frag = Ok (snd x).

Lemma descend_flat frags : forall cur ups cur' ups',
  descend frags cur ups = Ok (cur', ups') ->
  wflat cur' ups' = wflat cur ups /\
  exists new, waddr cur' ups' = waddr cur ups ++ new /\ Forall2 made frags new /\
    length ups' = length ups + length frags /\
    match new with [] => True | x :: _ => fst x = length (f_kids cur) end.
Proof.
  induction frags as [|f frags IH]; intros cur ups cur' ups' H; cbn in H.
  - injection H as <- <-. split; [reflexivity|]. exists []. rewrite app_nil_r. repeat split; auto.
  - destruct (create_node f) as [na|] eqn:E; [|discriminate]. cbn [bind] in H.
    apply IH in H as (H1 & new & H2 & H3 & H4 & H5).
    rewrite wflat_new in H1. split; [exact H1|].
    exists ((length (f_kids cur), na) :: new). repeat split.
    + rewrite H2. cbn [waddr]. rewrite <- app_assoc. cbn. destruct na. reflexivity.
    + constructor; [exact E|exact H3].
    + cbn in *. lia.
Qed.
Lemma descend_ok frags : forall cur ups,
  Forall (fun f => exists na, create_node f = Ok na) frags -> exists cu, descend frags cur ups = Ok cu.
Proof.
  induction frags as [|f frags IH]; intros cur ups H; cbn; [eauto|].
  inversion H as [|? ? [na Hna] H2]; subst. rewrite Hna. cbn [bind]. now apply IH.
Qed.

(** addresses of pieces *)
Definition piece_addr (p : piece) : addr := match p with PChar a _ => a | PLb a => a end.
(** no piece of [ps] lies in the element at [a] *)
Definition fresh (a : addr) (ps : list piece) : Prop :=
  forall p, In p ps -> ~ prefix a (piece_addr p).
Lemma fresh_app a ps qs : fresh a (ps ++ qs) <-> fresh a ps /\ fresh a qs.
Proof.
  unfold fresh. split.
  - intros H. split; intros p Hp; apply H; apply in_app_iff; auto.
  - intros [H1 H2] p Hp. apply in_app_iff in Hp as [Hp|Hp]; auto.
Qed.
Lemma flat_addr : forall e a p, In p (flat a e) ->
  exists b, piece_addr p = a ++ b.
Proof.
  induction e as [n at_ t cs tl IH|tl] using xml_ind'; intros a p H; [|destruct H].
  rewrite flat_eq in H. apply in_app_iff in H as [H|H].
  - apply in_map_iff in H as (c & <- & _). exists []. now rewrite app_nil_r.
  - revert H. generalize 0. induction IH as [|c cs Hc HF IHc]; intros i H; [destruct H|].
    cbn [flat_kids] in H. rewrite !in_app_iff in H. destruct H as [H|[H|H]].
    + destruct (is_break c).
      * destruct H as [<-|[]]. exists []. now rewrite app_nil_r.
      * apply Hc in H as [b ->]. rewrite <- app_assoc. eauto.
    + apply in_map_iff in H as (x & <- & _). exists []. now rewrite app_nil_r.
    + eapply IHc. exact H.
Qed.
Lemma flat_kids_addr a : forall cs i p, In p (flat_kids a i cs) ->
  piece_addr p = a \/ exists j x b, piece_addr p = a ++ (j, x) :: b /\ i <= j < i + length cs.
Proof.
  induction cs as [|c cs IH]; intros i p H; [destruct H|].
  cbn [flat_kids] in H. rewrite !in_app_iff in H. destruct H as [H|[H|H]].
  - destruct (is_break c).
    + destruct H as [<-|[]]. now left.
    + apply flat_addr in H as [b ->]. right. exists i, (node_of c), b. rewrite <- app_assoc. cbn. split; [reflexivity|lia].
  - apply in_map_iff in H as (x & <- & _). now left.
  - apply IH in H as [H|(j & x & b & H & Hj)]; [now left|]. right. exists j, x, b. cbn. split; [exact H|lia].
Qed.
Lemma flat_frame_addr a f p : In p (flat_frame a f) ->
  piece_addr p = a \/ exists j x b, piece_addr p = a ++ (j, x) :: b /\ j < length (f_kids f).
Proof.
  intros H. apply in_app_iff in H as [H|H].
  - apply in_map_iff in H as (x & <- & _). now left.
  - apply flat_kids_addr in H as [H|(j & x & b & H & Hj)]; [now left|]. right. exists j, x, b. split; [exact H|lia].
Qed.
Lemma app_cons_inj {A} (a : list A) x y b c : prefix (a ++ x :: b) (a ++ y :: c) -> x = y.
Proof. intros [r H]. rewrite <- app_assoc in H. apply app_inv_head in H. cbn in H. congruence. Qed.
Lemma app_cons_not_prefix {A} (a : list A) x b : ~ prefix (a ++ x :: b) a.
Proof. intros [r H]. apply (f_equal (@length A)) in H. rewrite !app_length in H. cbn in H. lia. Qed.

Lemma wflat_fresh cur ups x : fst x = length (f_kids cur) ->
  forall b, fresh (waddr cur ups ++ x :: b) (wflat cur ups).
Proof.
  revert cur x. induction ups as [|q ups IH]; intros cur x Hx b p Hp Hpre; cbn [wflat] in Hp.
  - apply flat_frame_addr in Hp as [E|(j & y & c & E & Hj)]; rewrite E in Hpre.
    + eapply app_cons_not_prefix; exact Hpre.
    + apply (app_cons_inj []) in Hpre. subst x. cbn in Hx. lia.
  - apply in_app_iff in Hp as [Hp|Hp].
    + cbn [waddr] in Hpre. rewrite <- app_assoc in Hpre. cbn in Hpre.
      eapply IH; [|exact Hp|exact Hpre]. reflexivity.
    + apply flat_frame_addr in Hp as [E|(j & y & c & E & Hj)]; rewrite E in Hpre.
      * eapply app_cons_not_prefix; exact Hpre.
      * apply app_cons_inj in Hpre. subst x. cbn in Hx. lia.
Qed.

(* ---------------------------------------------------------------- *)
(** writer states *)
Definition pieces (w : writer) : list piece := wflat (w_cur w) (w_up w).
Definition here (w : writer) : addr := waddr (w_cur w) (w_up w).
Definition wf (w : writer) : Prop := Forall2 made (w_path w) (here w).
Definition solid (w : writer) : Prop := w_up w = [] \/ nonvoid (w_cur w).

(** from [w] to [w'], keeping the first [d] open elements and writing [evs] *)
Definition moved (d : nat) (w w' : writer) (evs : list ev) : Prop :=
  pieces w' = pieces w ++ flat_map flat_ev evs /\
  d <= length (here w) /\ d <= length (here w') /\
  firstn d (here w') = firstn d (here w) /\
  (d < length (here w') -> fresh (firstn (S d) (here w')) (pieces w)).

Lemma moved_trans d1 d2 w w1 w2 e1 e2 :
  moved d1 w w1 e1 -> moved d2 w1 w2 e2 -> moved (min d1 d2) w w2 (e1 ++ e2).
Proof.
  intros (A1 & A2 & A3 & A4 & A5) (B1 & B2 & B3 & B4 & B5). repeat split.
  - rewrite B1, A1, flat_map_app, app_assoc. reflexivity.
  - lia.
  - lia.
  - assert (K : forall (x : addr) m n, m <= n -> firstn m x = firstn m (firstn n x)).
    { intros x m n Hm. rewrite firstn_firstn. f_equal. lia. }
    rewrite (K (here w2) _ d2), B4, <- K, (K (here w1) _ d1), A4, <- K by lia. reflexivity.
  - intros H. destruct (le_lt_dec d2 d1) as [L|L].
    + replace (min d1 d2) with d2 in * by lia. specialize (B5 H).
      rewrite A1 in B5. apply fresh_app in B5. tauto.
    + replace (min d1 d2) with d1 in * by lia.
      assert (E : firstn (S d1) (here w2) = firstn (S d1) (here w1)).
      { assert (K : forall x : addr, firstn (S d1) x = firstn (S d1) (firstn d2 x)).
        { intros x. rewrite firstn_firstn. f_equal. lia. }
        rewrite (K (here w2)), (K (here w1)). now rewrite B4. }
      rewrite E. apply A5. lia.
Qed.
Lemma moved_le d w w' evs : moved d w w' evs -> forall d', d' = d -> moved d' w w' evs.
Proof. intros H d' ->. exact H. Qed.

Lemma Forall2_length {A B} (R : A -> B -> Prop) l m : Forall2 R l m -> length l = length m.
Proof. induction 1; cbn; auto. Qed.
Lemma wf_length w : wf w -> length (w_path w) = length (w_up w).
Proof. intros H. apply Forall2_length in H. unfold here in H. now rewrite waddr_length in H. Qed.

Lemma require_moved w req w' :
  wf w -> (solid w \/ prefix (w_path w) req) ->
  require_path w req = Ok w' ->
  moved (length (common_path (w_path w) req)) w w' [] /\ wf w' /\ w_path w' = req /\
  (prefix req (w_path w) -> solid w -> solid w').
Proof.
  intros Hw Hs H. unfold ModelTei.require_path in H.
  destruct (path_eqb req (w_path w)) eqn:E.
  - apply path_eqb_true in E. injection H as <-. subst req.
    rewrite (common_of_prefix _ _ (prefix_refl _)).
    assert (L : length (w_path w) = length (here w)) by (apply (Forall2_length _ _ _ Hw)).
    repeat split; auto; try lia. cbn. now rewrite app_nil_r.
  - clear E. set (common := common_path (w_path w) req) in *.
    pose proof (wf_length w Hw) as HL.
    assert (Hc1 : prefix common (w_path w)) by apply common_prefix_l.
    assert (Hc2 : prefix common req) by apply common_prefix_r.
    pose proof (prefix_length _ _ Hc1) as Lc1.
    destruct (climb _ _ _) as [[cur1 ups1]|] eqn:E1; [|discriminate]. cbn [bind fst snd] in H.
    destruct (descend _ _ _) as [[cur2 ups2]|] eqn:E2; [|discriminate]. cbn [bind fst snd] in H.
    injection H as <-.
    assert (Hv : length (w_path w) - length common = 0 \/ nonvoid (w_cur w)).
    { destruct Hs as [[Hs|Hs]|Hs].
      - left. rewrite Hs in HL. cbn in HL. lia.
      - now right.
      - left. apply common_of_prefix in Hs. unfold common. rewrite Hs. lia. }
    destruct (climb_flat _ _ _ _ _ Hv E1) as (F1 & _ & F3 & F4 & F5).
    destruct (descend_flat _ _ _ _ _ E2) as (G1 & new & G2 & G3 & G4 & G5).
    assert (L1 : length ups1 = length common) by lia.
    assert (Here1 : waddr cur1 ups1 = firstn (length common) (here w)) by (rewrite F4, L1; reflexivity).
    assert (Lh : length (firstn (length common) (here w)) = length common).
    { rewrite <- Here1, waddr_length. exact L1. }
    assert (Hhere : here (mkWriter cur2 ups2 req) = firstn (length common) (here w) ++ new).
    { unfold here. cbn. rewrite G2. unfold here in Here1. now rewrite Here1. }
    assert (Lw : length (here w) = length (w_path w)) by (unfold here; rewrite waddr_length; lia).
    split; [|split; [|split]].
    + unfold moved. rewrite Hhere. repeat split.
      * unfold pieces. cbn. rewrite app_nil_r, G1, F1. reflexivity.
      * lia.
      * rewrite app_length. lia.
      * rewrite firstn_app, Lh, Nat.sub_diag, firstn_firstn, Nat.min_id. cbn. apply app_nil_r.
      * intros Hd. rewrite app_length, Lh in Hd.
        destruct new as [|x new]; [cbn in Hd; lia|].
        rewrite firstn_app, Lh. replace (S (length common) - length common) with 1 by lia.
        rewrite firstn_firstn. replace (min (S (length common)) (length common)) with (length common) by lia.
        cbn [firstn]. rewrite <- Here1. unfold pieces. rewrite <- F1. now apply wflat_fresh.
    + unfold wf. cbn [w_path]. rewrite Hhere.
      rewrite (prefix_skipn _ _ Hc2). apply Forall2_app; [|exact G3].
      assert (Hwf := Hw). unfold wf in Hwf.
      rewrite (prefix_skipn _ _ Hc1) in Hwf.
      apply Forall2_app_inv_l in Hwf as (l1 & l2 & W1 & W2 & W3).
      rewrite W3. apply Forall2_length in W1 as LW. rewrite LW, firstn_app, firstn_all, Nat.sub_diag. cbn.
      now rewrite app_nil_r.
    + reflexivity.
    + intros Hp Hsol. assert (Ec : common = req).
      { unfold common. rewrite common_sym. now apply common_of_prefix. }
      rewrite <- Ec, skipn_all in E2. injection E2 as <- <-. unfold solid. cbn.
      destruct F5 as [F5|[F5|F5]]; auto.
      rewrite F5 in E1. cbn in E1. injection E1 as <- <-. exact Hsol.
Qed.

(* ---------------------------------------------------------------- *)
(** writing text and line breaks *)
Lemma flat_add_tail a e t : flat a (add_tail e t) = flat a e.
Proof. destruct e; reflexivity. Qed.
Lemma node_add_tail e t : node_of (add_tail e t) = node_of e.
Proof. destruct e; reflexivity. Qed.
Lemma break_add_tail e t : is_break (add_tail e t) = is_break e.
Proof. destruct e; reflexivity. Qed.
Lemma xtail_add_tail e t : xtail (add_tail e t) = xtail e ++ t.
Proof. destruct e; reflexivity. Qed.
Lemma flat_kids_add_last a t : forall cs i, cs <> [] ->
  flat_kids a i (add_last_tail cs t) = flat_kids a i cs ++ map (PChar a) t.
Proof.
  induction cs as [|c cs IH]; intros i H; [congruence|]. destruct cs as [|c' cs].
  - cbn [add_last_tail flat_kids]. rewrite break_add_tail, flat_add_tail, node_add_tail, xtail_add_tail, map_app.
    rewrite !app_nil_r, <- !app_assoc. reflexivity.
  - change (add_last_tail (c :: c' :: cs) t) with (c :: add_last_tail (c' :: cs) t).
    assert (K : forall l, flat_kids a i (c :: l) =
       ((if is_break c then [PLb a] else flat (a ++ [(i, node_of c)]) c) ++ map (PChar a) (xtail c))
         ++ flat_kids a (S i) l) by (intros; cbn [flat_kids]; now rewrite app_assoc).
    rewrite !K, IH by discriminate. now rewrite app_assoc.
Qed.
Lemma add_last_tail_length t cs : length (add_last_tail cs t) = length cs.
Proof.
  induction cs as [|c cs IH]; [reflexivity|]. destruct cs; [reflexivity|].
  change (S (length (add_last_tail (x :: cs) t)) = S (length (x :: cs))). now rewrite IH.
Qed.
Lemma flat_frame_append a f t : flat_frame a (frame_append_text f t) = flat_frame a f ++ map (PChar a) t.
Proof.
  unfold frame_append_text, flat_frame. destruct (f_kids f) as [|k ks] eqn:E; cbn [f_text f_kids].
  - cbn [flat_kids]. rewrite map_app, !app_nil_r. reflexivity.
  - rewrite flat_kids_add_last by discriminate. rewrite app_assoc. reflexivity.
Qed.
Lemma fnode_append f t : fnode (frame_append_text f t) = fnode f.
Proof. unfold frame_append_text. destruct (f_kids f); reflexivity. Qed.
Lemma here_append_text w t : here (w_append_text w t) = here w.
Proof. unfold here. cbn. apply waddr_node. apply fnode_append. Qed.
Lemma pieces_append_text w t : pieces (w_append_text w t) = pieces w ++ map (PChar (here w)) t.
Proof.
  unfold pieces, here. cbn [w_append_text w_cur w_up]. destruct (w_up w) as [|q ups]; cbn [wflat].
  - apply flat_frame_append.
  - rewrite flat_frame_append, <- app_assoc. rewrite (waddr_node _ (w_cur w)) by apply fnode_append. reflexivity.
Qed.
Lemma nonvoid_append f t : t <> [] -> nonvoid (frame_append_text f t).
Proof.
  intros Ht. unfold nonvoid, frame_append_text. destruct (f_kids f) as [|k ks].
  - cbn. destruct (f_attrib f); [|reflexivity]. destruct t; [congruence|]. destruct (f_text f); reflexivity.
  - unfold close. cbn [f_name f_attrib f_text f_kids is_break].
    destruct (f_attrib f); [|reflexivity]. destruct (f_text f); [|reflexivity].
    pose proof (add_last_tail_length t (k :: ks)) as L. destruct (add_last_tail (k :: ks) t); [discriminate|reflexivity].
Qed.
Lemma wf_append_text w t : wf w -> wf (w_append_text w t).
Proof. unfold wf. rewrite here_append_text. auto. Qed.
Lemma here_append_lb w k : here (w_append w k) = here w.
Proof. unfold here. cbn. apply waddr_node. reflexivity. Qed.
Lemma pieces_append_lb w : pieces (w_append w lb_elem) = pieces w ++ [PLb (here w)].
Proof. unfold pieces. cbn [w_append w_cur w_up]. rewrite wflat_add_kid. reflexivity. Qed.

(** appending to the current element *)
Lemma moved_refl w : wf w -> moved (length (w_path w)) w w [].
Proof.
  intros Hw. apply Forall2_length in Hw. unfold moved. cbn. rewrite app_nil_r. repeat split; lia.
Qed.
Lemma moved_text w t : wf w -> moved (length (w_path w)) w (w_append_text w (tx t)) [EvTok t (here w)].
Proof.
  intros Hw. apply Forall2_length in Hw. unfold moved. rewrite here_append_text.
  repeat split; try lia. rewrite pieces_append_text. cbn. now rewrite app_nil_r.
Qed.
Lemma moved_lb w : wf w -> moved (length (w_path w)) w (w_append w lb_elem) [EvLb (here w)].
Proof.
  intros Hw. apply Forall2_length in Hw. unfold moved. rewrite here_append_lb.
  repeat split; try lia. rewrite pieces_append_lb. cbn. reflexivity.
Qed.

Lemma common_idem p q : common_path (common_path p q) q = common_path p q.
Proof. apply common_of_prefix. apply common_prefix_r. Qed.
Lemma common_idem_l p q : common_path p (common_path p q) = common_path p q.
Proof. rewrite common_sym. apply common_of_prefix. apply common_prefix_l. Qed.

Lemma require_self w req w' : require_path w req = Ok w' -> require_path w' req = Ok w'.
Proof.
  unfold ModelTei.require_path. destruct (path_eqb req (w_path w)) eqn:E.
  - intros H. injection H as <-. now rewrite E.
  - destruct (climb _ _ _); [|discriminate]. cbn [bind]. destruct (descend _ _ _); [|discriminate]. cbn [bind].
    intros H. injection H as <-. cbn [w_path].
    assert (X : path_eqb req req = true) by now apply path_eqb_true. rewrite X. reflexivity.
Qed.

(** pending spaces *)
Lemma pending_settled req w pend : wf w -> prefix (w_path w) req ->
  exists w', write_pending req w pend = Ok w' /\
    moved (length (w_path w)) w w' (map (fun p => EvTok p (here w)) pend) /\
    wf w' /\ w_path w' = w_path w /\ here w' = here w.
Proof.
  intros Hw Hp. revert w Hw Hp. induction pend as [|p pend IH]; intros w Hw Hp.
  - exists w. cbn. split; [reflexivity|]. split; [now apply moved_refl|auto].
  - unfold ModelTei.write_pending. cbn [foldM]. unfold ModelTei.require_path_or_below at 1.
    rewrite (common_of_prefix _ _ Hp). unfold ModelTei.require_path.
    assert (X : path_eqb (w_path w) (w_path w) = true) by now apply path_eqb_true. rewrite X.
    cbn [bind].
    destruct (IH (w_append_text w (tx p))) as (w' & A & B & C & D & E).
    { now apply wf_append_text. }
    { exact Hp. }
    exists w'. split; [exact A|]. rewrite here_append_text in *. split.
    + change (map ?f (p :: pend)) with ([f p] ++ map f pend).
      eapply moved_le; [|symmetry; apply Nat.min_id].
      eapply moved_trans; [now apply moved_text|]. exact B.
    + auto.
Qed.

Definition safe (w : writer) (req : list str) : Prop := solid w \/ prefix (w_path w) req.

Lemma goto_moved req w pend w2 w3 : wf w -> safe w req ->
  write_pending req w pend = Ok w2 -> require_path w2 req = Ok w3 ->
  exists a, moved (length (common_path (w_path w) req)) w w3 (map (fun p => EvTok p a) pend) /\
    wf w3 /\ w_path w3 = req /\ prefix a (here w3) /\
    (pend <> [] -> length a = length (common_path (w_path w) req)).
Proof.
  intros Hw Hs H2 H3. destruct pend as [|p pend].
  - injection H2 as <-. apply require_moved in H3 as (M & W & P & _); auto.
    exists []. split; [exact M|]. split; [exact W|]. split; [exact P|]. split; [apply prefix_nil|congruence].
  - assert (exists w1, require_path_or_below w req = Ok w1) as [w1 H1].
    { unfold ModelTei.write_pending in H2. cbn [foldM] in H2.
      destruct (require_path_or_below w req); [eauto|discriminate]. }
    unfold ModelTei.require_path_or_below in H1.
    assert (H1' := H1).
    apply require_moved in H1 as (M1 & W1 & P1 & _); [|assumption|].
    2:{ destruct Hs as [Hs|Hs]; [now left|]. right. rewrite (common_of_prefix _ _ Hs). apply prefix_refl. }
    rewrite common_idem_l in M1.
    assert (Hp1 : prefix (w_path w1) req) by (rewrite P1; apply common_prefix_r).
    destruct (pending_settled req w1 (p :: pend) W1 Hp1) as (w2' & A & B & C & D & E).
    assert (w2' = w2).
    { unfold ModelTei.write_pending in *. cbn [foldM] in *.
      unfold ModelTei.require_path_or_below at 1 in A. rewrite (common_of_prefix _ _ Hp1), P1 in A.
      rewrite (require_self _ _ _ H1') in A. cbn [bind] in A.
      unfold ModelTei.require_path_or_below at 1 in H2. rewrite H1' in H2. cbn [bind] in H2. congruence. }
    subst w2'. assert (Hp2 : prefix (w_path w2) req) by now rewrite D.
    apply require_moved in H3 as (M3 & W3 & P3 & _); [|assumption|now right].
    exists (here w1). split; [|split; [exact W3|split; [exact P3|split]]].
    + pose proof (moved_trans _ _ _ _ _ _ _ (moved_trans _ _ _ _ _ _ _ M1 B) M3) as M.
      cbn [app] in M. rewrite app_nil_r in M. eapply moved_le; [exact M|].
      rewrite D, P1, common_idem. lia.
    + destruct M3 as (_ & _ & _ & M & _). rewrite D, P1, common_idem, E in M.
      apply Forall2_length in W1. rewrite P1 in W1.
      rewrite (firstn_all2 (here w1)) in M by (rewrite W1; lia).
      rewrite <- M. apply prefix_firstn_self.
    + intros _. apply Forall2_length in W1. now rewrite <- W1, P1.
Qed.

(* ---------------------------------------------------------------- *)
(** tokens *)
Variable sp : N -> bool.
Variable mapping : list (str * str).
Notation write_token := (write_token sp node_ok mapping).
Notation required_path := (required_path mapping).
Notation main_path := (main_path mapping).
Notation sub_path := (sub_path mapping).
Notation keep := (keep mapping).

Lemma main_prefix_required t : prefix (main_path t) (required_path t).
Proof.
  unfold ModelTei.required_path, ModelTei.sub_path. destruct (truthy (sub_full_tag t)); [|apply prefix_refl].
  cbv zeta. destruct (path_starts_with _ _) eqn:E; [|apply prefix_refl]. now apply starts_prefix.
Qed.
Lemma common_nil p : common_path p [] = [].
Proof. now destruct p. Qed.

Lemma word_moved s t s' : wf (s_w s) -> solid (s_w s) -> is_space sp t = false ->
  write_token s t = Ok s' ->
  exists a, moved (length (keep (w_path (s_w s)) (s_reset s) t)) (s_w s) (s_w s')
              (map (fun p => EvTok p a) (s_pend s) ++ [EvTok t (here (s_w s'))]) /\
    wf (s_w s') /\ solid (s_w s') /\ w_path (s_w s') = required_path t /\
    prefix a (here (s_w s')) /\ s_pend s' = [] /\ s_reset s' = [] /\
    (s_pend s <> [] -> forall n, length (main_path t) <= n -> (length a < n <->
       length (keep (w_path (s_w s)) (s_reset s) t) < n)).
Proof.
  intros Hw Hs Hsp H. unfold ModelTei.write_token in H. unfold SpecTeiWrite.keep.
  destruct (split_tag_prefix (main_full_tag t)) as [mp mv]. cbv zeta in H. rewrite Hsp in H.
  match type of H with bind ?x _ = _ => destruct x as [w1|] eqn:E1; [|discriminate] end. cbn [bind] in H.
  destruct (write_pending _ _ _) as [w2|] eqn:E2; [|discriminate]. cbn [bind] in H.
  destruct (require_path w2 _) as [w3|] eqn:E3; [|discriminate]. cbn [bind] in H.
  injection H as <-. cbn [s_w s_pend s_reset].
  (* the first step *)
  assert (S1 : exists d1, moved d1 (s_w s) w1 [] /\ wf w1 /\ safe w1 (required_path t) /\
     min d1 (length (common_path (w_path w1) (required_path t))) =
     length (if is_b mp then common_path (w_path (s_w s)) (removelast (main_path t))
             else if omem mv (s_reset s) then []
             else if is_b (fst (split_tag_prefix (sub_full_tag t)))
               then match sub_path t with
                    | Some q => common_path (w_path (s_w s)) (removelast q)
                    | None => []
                    end
             else common_path (w_path (s_w s)) (required_path t)) /\
     (forall n, length (main_path t) <= n -> length (common_path (w_path w1) (required_path t)) < n <->
     length (if is_b mp then common_path (w_path (s_w s)) (removelast (main_path t))
             else if omem mv (s_reset s) then []
             else if is_b (fst (split_tag_prefix (sub_full_tag t)))
               then match sub_path t with
                    | Some q => common_path (w_path (s_w s)) (removelast q)
                    | None => []
                    end
             else common_path (w_path (s_w s)) (required_path t)) < n)).
  { destruct (is_b mp).
    { apply require_moved in E1 as (M & W & P & _); auto.
      exists (length (common_path (w_path (s_w s)) (removelast (main_path t)))).
      assert (Hpre : prefix (removelast (main_path t)) (required_path t)).
      { eapply prefix_trans; [apply prefix_removelast|apply main_prefix_required]. }
      split; [exact M|]. split; [exact W|]. split.
      - right. now rewrite P.
      - rewrite P, (common_of_prefix _ _ Hpre).
        pose proof (prefix_length _ _ (common_prefix_r (w_path (s_w s)) (removelast (main_path t)))).
        split; [lia|]. intros n Hn. destruct (main_path t) as [|x l] eqn:Em; [cbn in *; lia|].
        assert (length (removelast (x :: l)) < length (x :: l)) by (rewrite removelast_firstn_len, firstn_length; cbn; lia). lia. }
    destruct (omem mv (s_reset s)).
    { apply require_moved in E1 as (M & W & P & S); auto.
      exists (length (common_path (w_path (s_w s)) [])).
      split; [exact M|]. split; [exact W|]. split.
      - left. apply S; [apply prefix_nil|exact Hs].
      - rewrite P, common_nil. cbn. split; [lia|]. intros. lia. }
    destruct (is_b (fst (split_tag_prefix (sub_full_tag t)))).
    { unfold ModelTei.require_path_or_below in E1.
      set (q0 := match sub_path t with Some p => removelast p | None => [] end) in *.
      assert (Hpre : prefix q0 (required_path t)).
      { unfold q0, ModelTei.required_path. destruct (sub_path t); [apply prefix_removelast|apply prefix_nil]. }
      assert (Ek : match sub_path t with
                   | Some q => common_path (w_path (s_w s)) (removelast q)
                   | None => [] end = common_path (w_path (s_w s)) q0).
      { unfold q0. destruct (sub_path t); [reflexivity|]. now rewrite common_nil. }
      rewrite Ek. apply require_moved in E1 as (M & W & P & S); auto.
      rewrite common_idem_l in M.
      exists (length (common_path (w_path (s_w s)) q0)).
      split; [exact M|]. split; [exact W|]. split.
      - left. apply S; [apply common_prefix_l|exact Hs].
      - rewrite P, (common_of_prefix (common_path (w_path (s_w s)) q0) (required_path t)); [split; lia|].
        eapply prefix_trans; [apply common_prefix_r|exact Hpre]. }
    injection E1 as <-. exists (length (w_path (s_w s))).
    split; [now apply moved_refl|]. split; [exact Hw|]. split; [now left|].
    pose proof (prefix_length _ _ (common_prefix_l (w_path (s_w s)) (required_path t))). split; lia. }
  destruct S1 as (d1 & M1 & W1 & Sf1 & Ed & Ek).
  destruct (goto_moved _ _ _ _ _ W1 Sf1 E2 E3) as (a & M3 & W3 & P3 & Ha & Hl).
  exists a. rewrite here_append_text.
  assert (Htx : tx t <> []) by (intros C; unfold is_space in Hsp; rewrite C in Hsp; discriminate).
  split; [|split; [now apply wf_append_text|split; [|split; [exact P3|split; [exact Ha|split; [reflexivity|split; [reflexivity|]]]]]]].
  - pose proof (moved_trans _ _ _ _ _ _ _ (moved_trans _ _ _ _ _ _ _ M1 M3) (moved_text _ t W3)) as M.
    cbn [app] in M. eapply moved_le; [exact M|]. rewrite Ed, P3.
    match goal with |- ?k = min ?k _ => assert (k <= length (required_path t)) end; [|lia].
    rewrite <- Ed. pose proof (prefix_length _ _ (common_prefix_r (w_path w1) (required_path t))). lia.
  - right. cbn. now apply nonvoid_append.
  - intros Hne. rewrite (Hl Hne). exact Ek.
Qed.

(* ---------------------------------------------------------------- *)
(** all tokens and line breaks *)
Definition step (s : wstate) (o : option tok) : res wstate :=
  match o with
  | Some t => write_token s t
  | None => Ok (mkWs (w_append (s_w s) lb_elem) (s_pend s) (s_reset s))
  end.
Lemma foldM_app {A B} (f : B -> A -> res B) l1 : forall l2 b,
  foldM f b (l1 ++ l2) = do b' <- foldM f b l1 ;; foldM f b' l2.
Proof.
  induction l1 as [|x l1 IH]; intros l2 b; [reflexivity|]. cbn [app foldM].
  destruct (f b x); [|reflexivity]. cbn [bind]. apply IH.
Qed.
Lemma foldM_map {A B C} (f : B -> C -> res B) (g : A -> C) l : forall b,
  foldM f b (map g l) = foldM (fun b a => f b (g a)) b l.
Proof.
  induction l as [|x l IH]; intros b; [reflexivity|]. cbn [map foldM].
  destruct (f b (g x)); [|reflexivity]. cbn [bind]. apply IH.
Qed.
Lemma write_lines_steps s ls :
  write_lines sp node_ok mapping s ls = foldM step s (lines_items ls).
Proof.
  destruct ls as [|l ls]; [reflexivity|]. cbn [write_lines lines_items].
  rewrite foldM_app, foldM_map. unfold write_line at 1.
  change (fun b a => step b (Some a)) with write_token.
  destruct (foldM write_token s l) as [s1|]; [|reflexivity]. cbn [bind].
  revert s1. induction ls as [|l' ls IH]; intros s1; [reflexivity|].
  cbn [foldM flat_map app]. cbn [step bind]. rewrite foldM_app, foldM_map.
  unfold write_line at 1.
  change (fun b a => step b (Some a)) with write_token.
  destruct (foldM write_token _ l') as [s2|]; [|reflexivity]. cbn [bind]. apply IH.
Qed.

Definition otoks (l : list (option tok)) : list tok :=
  flat_map (fun o => match o with Some t => [t] | None => [] end) l.
Notation words_go := (words_go sp).
Notation linked := (linked node_ok mapping).
Notation ev_words := (ev_words sp).
Notation ev_skeleton := (ev_skeleton sp).
Notation skeleton := (skeleton sp).
Notation placed := (placed sp).
Notation next_addr := (next_addr sp).
Notation next_word := (next_word sp).
Notation spaced := (spaced sp mapping).

Lemma words_go_spaces rs l : Forall (fun t => is_space sp t = true) l -> words_go rs l = [].
Proof. intros H. revert rs. induction H as [|t l Ht HF IH]; intros rs; cbn; [reflexivity|]. now rewrite Ht, IH. Qed.

Lemma next_addr_spaces l (a : addr) r : Forall (fun t => is_space sp t = true) l ->
  next_addr (map (fun p => EvTok p a) l ++ r) = next_addr r.
Proof. induction 1 as [|t l Ht HF IH]; cbn; [reflexivity|]. now rewrite Ht. Qed.
Lemma placed_spaces prev l (a : addr) r : Forall (fun t => is_space sp t = true) l ->
  prefix a (next_addr r) -> placed prev r -> placed prev (map (fun p => EvTok p a) l ++ r).
Proof.
  intros H Ha Hr. induction H as [|t l Ht HF IH]; [exact Hr|].
  cbn [map app SpecTeiWrite.placed]. rewrite Ht. split; [|exact IH].
  rewrite next_addr_spaces by assumption. exact Ha.
Qed.
Lemma ev_spaces l (a : addr) : Forall (fun t => is_space sp t = true) l ->
  ev_words (map (fun p => EvTok p a) l) = [] /\ ev_skeleton (map (fun p => EvTok p a) l) = [] /\
  ev_toks (map (fun p => EvTok p a) l) = l.
Proof.
  intros H. repeat split; induction H as [|t l Ht HF IH]; cbn; try reflexivity;
    try (rewrite Ht; exact IH). f_equal. exact IH.
Qed.

Lemma next_word_spaces l (a : addr) r : Forall (fun t => is_space sp t = true) l ->
  next_word (map (fun p => EvTok p a) l ++ r) = next_word r.
Proof. induction 1 as [|t l Ht HF IH]; cbn; [reflexivity|]. now rewrite Ht. Qed.
Lemma spaced_spaces prev l (a : addr) r : Forall (fun t => is_space sp t = true) l ->
  (l <> [] -> match next_word r with
    | Some (w, b) => forall n, length (main_path w) <= n -> n <= length b ->
        (length a < n <-> ~ prefix (firstn n b) prev)
    | None => True end) -> spaced prev r -> spaced prev (map (fun p => EvTok p a) l ++ r).
Proof.
  intros H Ha Hr. induction H as [|t l Ht HF IH]; [exact Hr|].
  cbn [map app SpecTeiWrite.spaced]. rewrite Ht. split.
  - rewrite next_word_spaces by assumption. apply Ha. discriminate.
  - apply IH. intros _. apply Ha. discriminate.
Qed.

(** trailing spaces *)
Definition tail_evs (pend : list tok) : list ev := map (fun p => EvTok p []) pend.

Lemma run items : forall s s' earlier,
  foldM step s items = Ok s' ->
  wf (s_w s) -> solid (s_w s) -> Forall (fun t => is_space sp t = true) (s_pend s) ->
  (forall c, In c earlier -> exists p, In p (pieces (s_w s)) /\ piece_addr p = c) ->
  exists evs W,
    pieces (s_w s') = pieces (s_w s) ++ flat_map flat_ev evs /\
    wf (s_w s') /\ solid (s_w s') /\ Forall (fun t => is_space sp t = true) (s_pend s') /\
    ev_toks evs ++ s_pend s' = s_pend s ++ otoks items /\
    map fst W = words_go (s_reset s) (otoks items) /\
    ev_words evs = map (fun x => (snd (fst x), snd x)) W /\
    ev_skeleton evs = skeleton items /\
    linked (w_path (s_w s)) (here (s_w s)) earlier W /\
    placed (here (s_w s)) (evs ++ tail_evs (s_pend s')) /\
    ((here (s_w s) = [] \/ In (here (s_w s)) earlier) -> spaced (here (s_w s)) (evs ++ tail_evs (s_pend s'))).
Proof.
  induction items as [|o items IH]; intros s s' earlier H Hw Hs Hp He.
  - injection H as <-. exists [], []. cbn [flat_map app map]. rewrite !app_nil_r.
    assert (P : placed (here (s_w s)) (tail_evs (s_pend s))).
    { unfold tail_evs. rewrite <- (app_nil_r (map _ _)). apply placed_spaces; auto. apply prefix_nil. cbn. auto. }
    assert (P' : spaced (here (s_w s)) (tail_evs (s_pend s))).
    { unfold tail_evs. rewrite <- (app_nil_r (map _ _)). apply spaced_spaces; cbn; auto. }
    repeat split; auto.
  - cbn [foldM] in H. destruct (step s o) as [s1|] eqn:E1; [|discriminate]. cbn [bind] in H.
    destruct o as [t|].
    + cbn [step] in E1. destruct (is_space sp t) eqn:Et.
      * (* a space *)
        unfold ModelTei.write_token in E1. rewrite Et in E1.
        destruct (split_tag_prefix (main_full_tag t)) as [mp mv] eqn:Esp. injection E1 as <-.
        match type of H with foldM step ?x _ = _ => set (s1 := x) in H end.
        assert (Hp1 : Forall (fun t => is_space sp t = true) (s_pend s1)).
        { cbn. apply Forall_app. split; [exact Hp|]. constructor; [exact Et|constructor]. }
        destruct (IH s1 s' earlier H Hw Hs Hp1 He) as (evs & W & A1 & A2 & A3 & A4 & A5 & A6 & A7 & A8 & A9 & A10 & A11).
        exists evs, W. repeat split; auto.
        -- rewrite A5. cbn. rewrite <- app_assoc. reflexivity.
        -- rewrite A6. cbn [otoks flat_map app s1 s_reset SpecTeiWrite.words_go]. rewrite Et. f_equal.
           unfold begins. rewrite Esp. destruct mv as [v|], (is_b mp); reflexivity.
        -- rewrite A8. cbn [SpecTeiWrite.skeleton filter]. rewrite Et. reflexivity.
      * (* a word *)
        destruct (word_moved s t s1 Hw Hs Et E1) as (a & M & W1 & S1 & P1 & Ha & Ep & Er & Hl).
        destruct M as (M1 & M2 & M3 & M4 & M5).
        assert (Hp1 : Forall (fun t => is_space sp t = true) (s_pend s1)) by (rewrite Ep; constructor).
        assert (Htx : tx t <> []) by (intros C; unfold is_space in Et; rewrite C in Et; discriminate).
        assert (He1 : forall c, In c (earlier ++ [here (s_w s1)]) ->
                  exists p, In p (pieces (s_w s1)) /\ piece_addr p = c).
        { intros c Hc. rewrite M1. apply in_app_iff in Hc as [Hc|[<-|[]]].
          - destruct (He c Hc) as (p & Hin & Hpa). exists p. split; [|exact Hpa]. apply in_app_iff. auto.
          - destruct (tx t) as [|x xs] eqn:Ex; [congruence|].
            exists (PChar (here (s_w s1)) x). split; [|reflexivity].
            rewrite flat_map_app, !in_app_iff. right. right. cbn. rewrite Ex. cbn. auto. }
        destruct (IH s1 s' _ H W1 S1 Hp1 He1) as (evs & W & A1 & A2 & A3 & A4 & A5 & A6 & A7 & A8 & A9 & A10 & A11).
        set (sps := map (fun p => EvTok p a) (s_pend s)) in *.
        destruct (ev_spaces (s_pend s) a Hp) as (X1 & X2 & X3). fold sps in X1, X2, X3.
        exists (sps ++ EvTok t (here (s_w s1)) :: evs), ((s_reset s, t, here (s_w s1)) :: W).
        assert (Esplit : sps ++ EvTok t (here (s_w s1)) :: evs = (sps ++ [EvTok t (here (s_w s1))]) ++ evs)
          by (rewrite <- app_assoc; reflexivity).
        split; [|split; [exact A2|split; [exact A3|split; [exact A4|split; [|split; [|split; [|split; [|split; [|split]]]]]]]]].
        -- rewrite A1, M1, <- app_assoc, <- flat_map_app, <- Esplit. reflexivity.
        -- unfold ev_toks in *. rewrite flat_map_app, X3. cbn [flat_map app].
           rewrite <- app_assoc. f_equal. cbn. f_equal.
           rewrite A5, Ep. reflexivity.
        -- cbn [map fst otoks flat_map app SpecTeiWrite.words_go]. rewrite Et. f_equal. rewrite A6, Er. reflexivity.
        -- unfold SpecTeiWrite.ev_words in *. rewrite flat_map_app, X1. cbn [flat_map app map fst snd].
           rewrite Et. cbn [app]. f_equal. exact A7.
        -- unfold SpecTeiWrite.ev_skeleton in *. rewrite flat_map_app, X2.
           cbn [flat_map app SpecTeiWrite.skeleton filter]. rewrite Et. cbn [negb app]. f_equal. exact A8.
        -- cbn [SpecTeiWrite.linked]. split; [rewrite <- P1; exact W1|]. split; [exact M2|]. split; [exact M3|].
           split; [exact M4|]. split.
           ++ intros Hk c Hc Hpre. destruct (He c Hc) as (p & Hin & <-). exact (M5 Hk p Hin Hpre).
           ++ rewrite <- P1. exact A9.
        -- rewrite <- app_assoc. unfold sps. apply placed_spaces; auto.
           ++ cbn [app SpecTeiWrite.next_addr]. rewrite Et. exact Ha.
           ++ cbn [app SpecTeiWrite.placed]. rewrite Et. exact A10.
        -- intros Hprev. rewrite <- app_assoc. unfold sps. apply spaced_spaces; auto.
           ++ intros Hne. cbn [app SpecTeiWrite.next_word]. rewrite Et. intros n Hmn Hn. rewrite (Hl Hne n Hmn). clear Hl.
              set (k := length (keep (w_path (s_w s)) (s_reset s) t)) in *.
              split.
              ** intros Hk Hpre.
                 assert (Hp2 : prefix (firstn (S k) (here (s_w s1))) (here (s_w s))).
                 { eapply prefix_trans; [|exact Hpre]. replace (S k) with (min (S k) n) by lia.
                   rewrite <- firstn_firstn. apply prefix_firstn_self. }
                 destruct Hprev as [Hz|Hin].
                 --- rewrite Hz in Hp2. apply prefix_length in Hp2. rewrite firstn_length in Hp2. cbn [length] in Hp2. lia.
                 --- destruct (He _ Hin) as (p & Hip & Epa). rewrite <- Epa in Hp2. apply (M5 ltac:(lia) p Hip Hp2).
              ** intros Hnp. apply Nat.lt_nge. intros Hk. apply Hnp.
                 replace n with (min n k) by lia. rewrite <- firstn_firstn, M4, firstn_firstn. apply prefix_firstn_self.
           ++ cbn [app SpecTeiWrite.spaced]. rewrite Et. apply A11. right. apply in_or_app. right. now left.
    + (* a line break *)
      injection E1 as <-. 
      match type of H with foldM step ?x _ = _ => set (s1 := x) in H end.
      assert (W1 : wf (s_w s1)) by (unfold wf; cbn [s1 s_w]; rewrite here_append_lb; exact Hw).
      assert (S1 : solid (s_w s1)) by (right; apply add_kid_nonvoid).
      assert (He1 : forall c, In c earlier -> exists p, In p (pieces (s_w s1)) /\ piece_addr p = c).
      { intros c Hc. destruct (He c Hc) as (p & Hin & Hpa). exists p. split; [|exact Hpa].
        cbn [s1 s_w]. rewrite pieces_append_lb. apply in_app_iff. auto. }
      destruct (IH s1 s' _ H W1 S1 Hp He1) as (evs & W & A1 & A2 & A3 & A4 & A5 & A6 & A7 & A8 & A9 & A10 & A11).
      exists (EvLb (here (s_w s)) :: evs), W. cbn [s1 s_w s_pend s_reset] in *.
      rewrite here_append_lb in *. repeat split; auto.
      * rewrite A1, pieces_append_lb, <- app_assoc. reflexivity.
      * cbn [SpecTeiWrite.ev_skeleton flat_map app]. cbn [SpecTeiWrite.skeleton filter]. f_equal. exact A8.
Qed.
End W.
