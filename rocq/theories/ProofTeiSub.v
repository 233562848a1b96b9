(** Lemmas about loading a saved tree: which characters get which sub tag. *)
From Verif Require Import Base ModelTags ModelTokenize ModelXml ModelTei ProofXml ProofTags
  ProofTokenize SpecTeiRead ProofTeiRead ProofTeiLoad PropTokenize PropTeiRead SpecTeiWrite ProofTeiWrite ProofTeiSave
  PropTeiWrite ProofTeiRoundtrip ProofTeiPrefix.
Open Scope nat_scope.

(* ---------------------------------------------------------------- *)
(** ** No element of a saved tree is empty (but line breaks) *)
Definition empty_elem (e : xml) : bool := match e with Elem _ _ [] [] _ | Misc _ => true | _ => false end.
Fixpoint filled (e : xml) : bool :=
  match e with
  | Elem _ _ _ cs _ => forallb (fun c => (is_break c || negb (empty_elem c)) && filled c) cs
  | Misc _ => true
  end.
Section Filled.
Variable sp : N -> bool.
Variable node_ok : str -> list (str * str) -> bool.
Variable mapping : list (str * str).
Definition kid_filled (c : xml) : bool := (is_break c || negb (empty_elem c)) && filled c.
Definition nvf (f : frame) : Prop := forallb kid_filled (f_kids f) = true.
Definition nv (w : writer) : Prop := nvf (w_cur w) /\ Forall nvf (w_up w).
Definition some_content (f : frame) : Prop := f_text f <> [] \/ f_kids f <> [].
Definition full (w : writer) : Prop := w_up w = [] \/ some_content (w_cur w).
Lemma close_filled p cur : nvf p -> nvf cur -> some_content cur -> nvf (add_kid p (close cur)) /\ some_content (add_kid p (close cur)).
Proof.
  intros Hp Hc Hs. split.
  - unfold nvf. cbn [add_kid f_kids]. rewrite forallb_app, Hp. cbn [forallb]. rewrite andb_true_r.
    unfold kid_filled, close. cbn [filled]. unfold nvf, kid_filled in Hc. rewrite Hc, andb_true_r.
    apply orb_true_iff. right. cbn [empty_elem]. destruct Hs as [Hs|Hs].
    + destruct (f_text cur); [congruence|reflexivity].
    + destruct (f_text cur); [|reflexivity]. destruct (f_kids cur); [congruence|reflexivity].
  - right. cbn. destruct (f_kids p); discriminate.
Qed.
Lemma climb_filled n : forall cur ups cu, nvf cur -> Forall nvf ups -> (n = 0 \/ some_content cur) ->
  climb n cur ups = Ok cu -> nvf (fst cu) /\ Forall nvf (snd cu) /\ (0 < n -> some_content (fst cu)).
Proof.
  induction n as [|n IH]; intros cur ups cu H1 H2 H3 H; cbn in H.
  - injection H as <-. repeat split; auto. lia.
  - destruct ups as [|p ups]; [discriminate|]. destruct H3 as [H3|H3]; [lia|]. inversion H2; subst.
    destruct (close_filled p cur) as [C1 C2]; auto.
    destruct (IH _ _ _ C1 H6 (or_intror C2) H) as (A & B & C). repeat split; auto. intros _.
    destruct n; [cbn in H; injection H as <-; exact C2|apply C; lia].
Qed.
Lemma descend_filled frags : forall cur ups cu, nvf cur -> Forall nvf ups ->
  descend node_ok frags cur ups = Ok cu -> nvf (fst cu) /\ Forall nvf (snd cu) /\ (frags = [] -> cu = (cur, ups)).
Proof.
  induction frags as [|f frags IH]; intros cur ups cu H1 H2 H; cbn in H.
  - injection H as <-. auto.
  - destruct (create_node node_ok f) as [na|]; [|discriminate]. cbn [bind] in H.
    apply IH in H as (A & B & _); [|reflexivity|now constructor]. repeat split; auto. discriminate.
Qed.
Lemma require_filled w req w' : nv w -> (full w \/ prefix (w_path w) req) -> wf node_ok w ->
  require_path node_ok w req = Ok w' -> nv w' /\ w_path w' = req /\ (prefix req (w_path w) -> full w -> full w').
Proof.
  unfold require_path. intros [N1 N2] Hs Hw H. destruct (path_eqb req (w_path w)) eqn:E.
  - injection H as <-. apply path_eqb_true in E. split; [now split|]. auto.
  - set (common := common_path (w_path w) req) in *.
    destruct (climb _ _ _) as [cu|] eqn:E1; [|discriminate]. cbn [bind] in H.
    destruct (descend _ _ _) as [cu'|] eqn:E2; [|discriminate]. cbn [bind] in H. injection H as <-.
    pose proof (wf_length _ _ Hw) as HL.
    assert (Hc : length (w_path w) - length common = 0 \/ some_content (w_cur w)).
    { destruct Hs as [[Hs|Hs]|Hs]; [|now right|].
      - left. rewrite Hs in HL. cbn in HL. rewrite HL. reflexivity.
      - left. unfold common. rewrite (common_of_prefix _ _ Hs). lia. }
    destruct (climb_filled _ _ _ _ N1 N2 Hc E1) as (A & B & C).
    destruct (descend_filled _ _ _ _ A B E2) as (A' & B' & C').
    split; [now split|]. split; [reflexivity|]. intros Hp Hf. unfold full. cbn [w_up w_cur].
    assert (Er : common = req) by (unfold common; rewrite common_sym; now apply common_of_prefix).
    rewrite Er in *. rewrite C' by (apply skipn_all). cbn [fst snd]. right. apply C.
    pose proof (prefix_length _ _ Hp) as HLp. destruct (Nat.eq_dec (length req) (length (w_path w))) as [Hd|Hd]; [|lia].
    exfalso. destruct Hp as [x Hx]. assert (x = []) as -> by (apply (f_equal (@length _)) in Hx; rewrite app_length in Hx; destruct x; [reflexivity|cbn in Hx; lia]).
    rewrite app_nil_r in Hx. symmetry in Hx. apply path_eqb_true in Hx. congruence.
Qed.
Lemma empty_add_tail c t : empty_elem (add_tail c t) = empty_elem c /\ is_break (add_tail c t) = is_break c /\ filled (add_tail c t) = filled c.
Proof. destruct c as [n a [|] [|] tl|]; auto. Qed.
Lemma kid_filled_tail c t : kid_filled (add_tail c t) = kid_filled c.
Proof. unfold kid_filled. destruct (empty_add_tail c t) as (-> & -> & ->). reflexivity. Qed.
Lemma append_filled f t : nvf f -> nvf (frame_append_text f t) /\ (t <> [] \/ some_content f -> some_content (frame_append_text f t)).
Proof.
  unfold nvf, frame_append_text, some_content. intros H. destruct (f_kids f) as [|k ks] eqn:E; cbn [f_kids f_text].
  - split; [reflexivity|]. intros [H1|[H1|H1]]; [| |congruence]; left; intros C; apply app_eq_nil in C; tauto.
  - split.
    + revert H. clear. generalize (k :: ks) as l. induction l as [|c l IH]; [auto|].
      destruct l as [|c' l].
      * cbn [forallb add_last_tail]. now rewrite kid_filled_tail.
      * change (add_last_tail (c :: c' :: l) t) with (c :: add_last_tail (c' :: l) t).
        cbn [forallb] in *. rewrite !andb_true_iff in *. intros [H1 H2]. split; [exact H1|]. apply IH. exact H2.
    + intros _. right. pose proof (add_last_tail_length t (k :: ks)) as L. destruct (add_last_tail (k :: ks) t); [discriminate|discriminate].
Qed.
Lemma append_nv w t : nv w -> nv (w_append_text w t) /\ (t <> [] \/ full w -> full (w_append_text w t)).
Proof.
  intros [N1 N2]. destruct (append_filled _ t N1) as [A B]. split; [now split|]. intros [H|[H|H]].
  - right. apply B. now left.
  - now left.
  - right. apply B. now right.
Qed.
Lemma pending_nv req pend : forall w w', nv w -> wf node_ok w -> solid w \/ prefix (w_path w) req -> (full w \/ prefix (w_path w) req) ->
  write_pending node_ok req w pend = Ok w' ->
  nv w' /\ wf node_ok w' /\ (full w' \/ prefix (w_path w') req) /\ (pend <> [] -> prefix (w_path w') req).
Proof.
  unfold write_pending. induction pend as [|p pend IH]; intros w w' Hn Hw Hsol Hs H.
  - injection H as <-. repeat split; auto; try apply Hn. congruence.
  - cbn [foldM] in H. destruct (require_path_or_below node_ok w req) as [w1|] eqn:E; [|discriminate]. cbn [bind] in H.
    unfold require_path_or_below in E.
    assert (Hs' : full w \/ prefix (w_path w) (common_path (w_path w) req)).
    { destruct Hs as [Hs|Hs]; [now left|]. right. rewrite (common_of_prefix _ _ Hs). apply prefix_refl. }
    assert (Hsol' : solid w \/ prefix (w_path w) (common_path (w_path w) req)).
    { destruct Hsol as [Hx|Hx]; [now left|]. right. rewrite (common_of_prefix _ _ Hx). apply prefix_refl. }
    pose proof (require_moved _ _ _ _ Hw Hsol' E) as (_ & W1 & _).
    destruct (require_filled _ _ _ Hn Hs' Hw E) as (A & B & _).
    assert (Hp : prefix (w_path w1) req) by (rewrite B; apply common_prefix_r).
    destruct (append_nv w1 (tx p) A) as [A1 _].
    destruct (IH (w_append_text w1 (tx p)) w') as (R1 & R2 & R3 & R4); auto.
    { now apply wf_append_text. }
    repeat split; auto; try apply R1. intros _. destruct pend as [|p' pend]; [|apply R4; discriminate].
    injection H as <-. exact Hp.
Qed.
Lemma step_nv s o s' : nv (s_w s) -> wf node_ok (s_w s) -> solid (s_w s) -> full (s_w s) ->
  step node_ok sp mapping s o = Ok s' -> nv (s_w s') /\ full (s_w s').
Proof.
  intros Hn Hw Hsol Hf H. destruct o as [t|].
  2:{ injection H as <-. cbn [s_w]. destruct Hn as [N1 N2]. split; [split; [|exact N2]|].
      - unfold nvf in *. cbn [w_append w_cur add_kid f_kids]. rewrite forallb_app, N1. reflexivity.
      - right. right. cbn. destruct (f_kids (w_cur (s_w s))); discriminate. }
  cbn [step] in H. unfold write_token in H.
  destruct (split_tag_prefix (main_full_tag t)) as [mp mv]. cbv zeta in H.
  destruct (is_space sp t) eqn:Et; [injection H as <-; auto|].
  match type of H with bind ?x _ = _ => destruct x as [w1|] eqn:E1; [|discriminate] end. cbn [bind] in H.
  destruct (write_pending _ _ _ _) as [w2|] eqn:E2; [|discriminate]. cbn [bind] in H.
  destruct (require_path _ w2 _) as [w3|] eqn:E3; [|discriminate]. cbn [bind] in H.
  injection H as <-. cbn [s_w].
  assert (S1 : nv w1 /\ wf node_ok w1 /\ (solid w1 \/ prefix (w_path w1) (required_path mapping t)) /\
    (full w1 \/ prefix (w_path w1) (required_path mapping t))).
  { destruct (is_b mp).
    { pose proof (require_moved _ _ _ _ Hw (or_introl Hsol) E1) as (_ & W & _).
      destruct (require_filled _ _ _ Hn (or_introl Hf) Hw E1) as (A & B & _).
      assert (prefix (w_path w1) (required_path mapping t)).
      { rewrite B. eapply prefix_trans; [apply prefix_removelast|apply main_prefix_required]. } auto. }
    destruct (omem mv (s_reset s)).
    { pose proof (require_moved _ _ _ _ Hw (or_introl Hsol) E1) as (_ & W & _).
      destruct (require_filled _ _ _ Hn (or_introl Hf) Hw E1) as (A & B & _).
      assert (prefix (w_path w1) (required_path mapping t)) by (rewrite B; apply prefix_nil). auto. }
    destruct (is_b _).
    { unfold require_path_or_below in E1.
      pose proof (require_moved _ _ _ _ Hw (or_introl Hsol) E1) as (_ & W & _ & S).
      destruct (require_filled _ _ _ Hn (or_introl Hf) Hw E1) as (A & B & C).
      pose proof (common_prefix_l (w_path (s_w s)) (match sub_path mapping t with Some p => removelast p | None => [] end)) as Hc.
      repeat split; auto; apply A. }
    injection E1 as <-. auto. }
  destruct S1 as (N1 & W1 & So1 & F1).
  destruct (pending_nv _ _ _ _ N1 W1 So1 F1 E2) as (N2 & W2 & F2 & _).
  destruct (require_filled _ _ _ N2 F2 W2 E3) as (N3 & _).
  destruct (append_nv w3 (tx t) N3) as [A B]. split; [exact A|]. apply B. left.
  intros C. unfold is_space in Et. rewrite C in Et. discriminate.
Qed.
Lemma steps_nv items : forall s s', nv (s_w s) -> wf node_ok (s_w s) -> solid (s_w s) -> full (s_w s) ->
  Forall (fun t => is_space sp t = true) (s_pend s) ->
  foldM (step node_ok sp mapping) s items = Ok s' -> nv (s_w s') /\ wf node_ok (s_w s') /\ solid (s_w s') /\ full (s_w s').
Proof.
  induction items as [|o items IH]; intros s s' Hn Hw Hsol Hf Hp H.
  - injection H as <-. auto.
  - cbn [foldM] in H. destruct (step node_ok sp mapping s o) as [s1|] eqn:E; [|discriminate]. cbn [bind] in H.
    assert (E1' : foldM (step node_ok sp mapping) s [o] = Ok s1) by (cbn [foldM]; rewrite E; reflexivity).
    destruct (run node_ok sp mapping [o] s s1 [] E1' Hw Hsol Hp) as (evs & W & _ & A2 & A3 & A4 & _); [intros c []|].
    destruct (step_nv s o s1 Hn Hw Hsol Hf E) as [B1 B2]. eapply IH; eauto.
Qed.
Lemma lines_to_tei_filled name ls r : lines_to_tei sp node_ok mapping name ls = Ok r -> filled r = true.
Proof.
  intros H. unfold lines_to_tei in H. fold (start name) in H. rewrite write_lines_steps in H.
  destruct (foldM _ _ _) as [s|] eqn:E1; [|discriminate]. cbn [bind] in H.
  destruct (write_pending node_ok [] (s_w s) (s_pend s)) as [w|] eqn:E2; [|discriminate]. cbn [bind] in H.
  destruct (climb _ _ _) as [cu|] eqn:E3; [|discriminate]. cbn [bind] in H. injection H as <-.
  assert (N0 : nv (s_w (start name))) by (split; constructor).
  assert (W0 : wf node_ok (s_w (start name))) by constructor.
  destruct (steps_nv (lines_items ls) (start name) s N0 W0 (or_introl eq_refl) (or_introl eq_refl) (Forall_nil _) E1) as (N1 & W1 & S1 & F1).
  destruct (pending_nv _ _ _ _ N1 W1 (or_introl S1) (or_introl F1) E2) as (N2 & W2 & F2 & _).
  destruct N2 as [N2 N3].
  assert (Hc : length (w_up w) = 0 \/ some_content (w_cur w)).
  { destruct F2 as [[F2|F2]|F2]; [left; now rewrite F2|now right|]. left.
    apply wf_length in W2. destruct F2 as [x Hx]. symmetry in Hx. apply app_eq_nil in Hx as [Hx _]. rewrite Hx in W2. now rewrite <- W2. }
  destruct (climb_filled _ _ _ _ N2 N3 Hc E3) as (A & _). exact A.
Qed.
End Filled.

Lemma filled_piece : forall e a, filled e = true -> empty_elem e = false -> exists p, In p (flat a e).
Proof.
  induction e as [n at_ t cs tl IH|tl] using xml_ind'; intros a Hf He; [|discriminate].
  rewrite flat_eq. destruct t as [|c t].
  2:{ exists (PChar a c). apply in_or_app. left. now left. }
  destruct cs as [|k cs]; [discriminate|]. cbn [filled forallb] in Hf. apply andb_true_iff in Hf as [Hk _].
  apply andb_true_iff in Hk as [Hk1 Hk2]. cbn [flat_kids]. destruct (is_break k) eqn:Eb.
  - exists (PLb a). apply in_or_app. right. now left.
  - cbn [orb] in Hk1. apply negb_true_iff in Hk1. inversion IH as [|? ? IHk _]; subst.
    destruct (IHk (a ++ [(0, node_of k)]) Hk2 Hk1) as [p Hp]. exists p.
    apply in_or_app. right. apply in_or_app. now left.
Qed.

(* ---------------------------------------------------------------- *)
(** ** The sub tags of a loaded tree *)
Section Subs.
Variables sp wd up lo : N -> bool.
Variable rp : list str.
Variable L : list piece.
Notation E := (E sp rp L).
Notation ent := (ent sp rp L).
Notation clear := (clear sp rp L).

(** does a piece end the leading text of the element? *)
Definition blocks (a : addr) (p : piece) : bool :=
  match p with PLb b => prefixb a b | PChar b _ => prefixb a b && negb (addr_eqb a b) end.
Definition lead (seen : list piece) (a : addr) : bool := negb (existsb (blocks a) seen).
Definition first_char (seen : list piece) (a : addr) : bool :=
  negb (existsb (fun p => match p with PChar b _ => addr_eqb a b | PLb _ => false end) seen).
Definition below_entity (a : addr) : bool := match E a with Some x => negb (addr_eqb x a) | None => false end.
Definition smark (seen : list piece) (a : addr) (c : N) : mark :=
  let ok := below_entity a && lead seen a in
  Some (c, if ok then Some (join_path (exprs a)) else None, ok && first_char seen a).
Fixpoint smarks (seen : list piece) (l : list piece) : list mark :=
  match l with
  | [] => []
  | PLb a :: l' => None :: smarks (PLb a :: seen) l'
  | PChar a c :: l' => smark seen a c :: smarks (PChar a c :: seen) l'
  end.
Lemma smarks_app l1 : forall seen l2, smarks seen (l1 ++ l2) = smarks seen l1 ++ smarks (rev l1 ++ seen) l2.
Proof.
  induction l1 as [|[a c|a] l1 IH]; intros seen l2; [reflexivity| |]; cbn [app smarks rev]; rewrite IH, <- app_assoc; reflexivity.
Qed.
Lemma lead_false seen a p : In p seen -> blocks a p = true -> lead seen a = false.
Proof. intros H1 H2. unfold lead. apply negb_false_iff. apply existsb_exists. eauto. Qed.
Lemma lead_fresh seen a : fresh a seen -> lead seen a = true /\ first_char seen a = true.
Proof.
  intros H. unfold lead, first_char. split; apply negb_true_iff, not_true_iff_false; rewrite existsb_exists; intros (p & Hin & Hp);
    apply (H p Hin).
  - destruct p as [b c|b]; cbn in *; [apply andb_true_iff in Hp as [Hp _]|]; now apply prefixb_true.
  - destruct p as [b c|b]; cbn in *; [|discriminate]. apply addr_eqb_true in Hp. subst. apply prefix_refl.
Qed.
Lemma smarks_lead a s : forall seen, below_entity a = true -> lead seen a = true -> first_char seen a = false ->
  smarks seen (map (PChar a) s) = map (fun c => Some (c, Some (join_path (exprs a)), false)) s.
Proof.
  induction s as [|c s IH]; intros seen H1 H2 H3; [reflexivity|]. cbn [map smarks]. unfold smark at 1. rewrite H1, H2, H3. cbn [andb].
  f_equal. apply IH; [exact H1| |].
  - unfold lead in *. cbn [existsb blocks]. rewrite addr_eqb_refl. cbn [negb]. rewrite andb_false_r. exact H2.
  - unfold first_char in *. cbn [existsb]. now rewrite addr_eqb_refl.
Qed.
Lemma smarks_text a s seen : below_entity a = true -> fresh a seen ->
  smarks seen (map (PChar a) s) = text_marks s (Some (join_path (exprs a))) true.
Proof.
  intros H1 H2. apply lead_fresh in H2 as [H2 H3]. destruct s as [|c s]; [reflexivity|]. cbn [map smarks text_marks]. unfold smark at 1.
  rewrite H1, H2, H3. cbn [andb]. f_equal. apply smarks_lead; [exact H1| |].
  - unfold lead in *. cbn [existsb blocks]. rewrite addr_eqb_refl. cbn [negb]. rewrite andb_false_r. exact H2.
  - unfold first_char in *. cbn [existsb]. now rewrite addr_eqb_refl.
Qed.
Lemma smarks_none a s : forall seen, below_entity a = false \/ (exists p, In p seen /\ blocks a p = true) ->
  smarks seen (map (PChar a) s) = map (fun c => Some (c, None, false)) s.
Proof.
  induction s as [|c s IH]; intros seen H; [reflexivity|]. cbn [map smarks]. f_equal.
  - unfold smark. destruct H as [H|(p & H1 & H2)]; [now rewrite H|]. rewrite (lead_false _ _ _ H1 H2), andb_false_r. reflexivity.
  - apply IH. destruct H as [H|(p & H1 & H2)]; [now left|]. right. exists p. split; [now right|exact H2].
Qed.

Lemma entity_toks v s : flat_map item_marks (entity v (toks wd up lo s)) = text_marks s (Some v) true.
Proof.
  rewrite marks_entity by apply toks_nonempty. rewrite chars_toks. destruct s as [|c s]; [reflexivity|]. cbn [map markfirst text_marks].
  f_equal. rewrite map_map. reflexivity.
Qed.

Definition filled_kid (c : xml) : bool := (is_break c || negb (empty_elem c)) && filled c.
Lemma sub_kids a (G : xml -> list item) cs : forall i seen,
  forallb (fun c => if is_lb c then is_break c else tidy c) cs = true ->
  forallb (fun c => node_fine c && fine c) cs = true -> forallb filled_kid cs = true ->
  (forall c, In c cs -> is_break c = true -> flat_map item_marks (G c) = []) ->
  (forall j c seen, nth_error cs j = Some c -> is_break c = false -> tidy c = true -> fine c = true -> filled c = true -> node_fine c = true ->
     fresh (a ++ [(i + j, node_of c)]) seen ->
     flat_map item_marks (G c) = smarks seen (flat (a ++ [(i + j, node_of c)]) c)) ->
  (forall j n, i <= j -> fresh (a ++ [(j, n)]) seen) ->
  flat_map item_marks (flat_map (fun c => untagged (lb_of c) ++ G c ++ untagged (toks wd up lo (xtail c))) cs)
  = smarks seen (flat_kids a i cs).
Proof.
  induction cs as [|c cs IH]; intros i seen Ht Hf Hfl Hbr Hkid Hfr; [reflexivity|].
  apply tidy_kid in Ht as [Hk Ht]. cbn [forallb] in Hf, Hfl. apply andb_true_iff in Hf as [Hfc Hf]. apply andb_true_iff in Hfl as [Hflc Hfl].
  cbn [flat_map flat_kids]. rewrite !flat_map_app, !smarks_app, marks_toks_none. rewrite <- !app_assoc.
  assert (Hkid' : forall j c0 seen0, nth_error cs j = Some c0 -> is_break c0 = false -> tidy c0 = true -> fine c0 = true ->
     filled c0 = true -> node_fine c0 = true -> fresh (a ++ [(S i + j, node_of c0)]) seen0 ->
     flat_map item_marks (G c0) = smarks seen0 (flat (a ++ [(S i + j, node_of c0)]) c0)).
  { intros j c0 seen0 H1. replace (S i + j) with (i + S j) by lia. now apply Hkid. }
  assert (Htail : forall s b seen0 j n, fresh (a ++ [(j, n)]) seen0 -> b = a -> fresh (a ++ [(j, n)]) (rev (map (PChar b) s) ++ seen0)).
  { intros s b seen0 j n H -> p Hp. apply in_app_or in Hp as [Hp|Hp]; [|now apply H]. apply in_rev in Hp.
    apply in_map_iff in Hp as (d & <- & _). cbn [piece_addr]. intros Hpre. apply prefix_length in Hpre. rewrite app_length in Hpre. cbn in Hpre. lia. }
  destruct Hk as [[Hl Hb]|(Hl & Hb & Htc)]; rewrite Hb in *.
  - destruct (break_empty wd up lo c Hb) as [_ ->]. rewrite (Hbr c (or_introl eq_refl) Hb).
    cbn [untagged map flat_map item_marks app smarks rev]. f_equal. rewrite smarks_none.
    2:{ right. exists (PLb a). split; [now left|]. cbn. apply prefixb_true. apply prefix_refl. }
    f_equal. apply IH; auto.
    + intros c' Hc'. apply Hbr. now right.
    + intros j n Hj. apply Htail; [|reflexivity]. intros p [<-|Hp]; [|apply (Hfr j n ltac:(lia) p Hp)].
      cbn [piece_addr]. intros Hpre. apply prefix_length in Hpre. rewrite app_length in Hpre. cbn in Hpre. lia.
  - unfold lb_of. rewrite Hl. cbn [untagged map flat_map app]. apply andb_true_iff in Hfc as [Hfn Hfc].
    unfold filled_kid in Hflc. rewrite Hb in Hflc. cbn [orb] in Hflc. apply andb_true_iff in Hflc as [Hem Hflc]. apply negb_true_iff in Hem.
    rewrite (Hkid 0 c seen); auto; rewrite Nat.add_0_r in *; [|now apply Hfr].
    destruct (filled_piece c (a ++ [(i, node_of c)]) Hflc Hem) as [p Hp].
    rewrite smarks_none.
    2:{ right. exists p. split; [apply in_or_app; left; now apply in_rev in Hp|].
        pose proof (flat_addr _ _ _ Hp) as (q & Hq).
        assert (P1 : prefixb a (piece_addr p) = true).
        { apply prefixb_true. exists ([(i, node_of c)] ++ q). now rewrite Hq, <- app_assoc. }
        destruct p as [b d|b]; cbn [blocks piece_addr] in *; rewrite P1; [|reflexivity]. cbn [andb]. apply negb_true_iff.
        apply not_true_iff_false. rewrite addr_eqb_true. intros C. rewrite <- C in Hq. apply (f_equal (@length _)) in Hq.
        rewrite !app_length in Hq. cbn in Hq. lia. }
    f_equal. f_equal. apply IH; auto.
    + intros c' Hc'. apply Hbr. now right.
    + intros j n Hj. apply Htail; [|reflexivity]. intros p' Hp'. apply in_app_or in Hp' as [Hp'|Hp']; [|apply (Hfr j n ltac:(lia) p' Hp')].
      apply in_rev in Hp'. apply flat_addr in Hp' as (q & Hq). intros Hpre.
      assert (Hp2 : prefix (a ++ [(i, node_of c)]) (piece_addr p')) by (exists q; exact Hq).
      destruct (prefix_step _ _ _ _ _ _ Hpre Hp2). lia.
Qed.
Lemma fresh_kid a j n seen t : fresh a seen -> fresh (a ++ [(j, n)]) (rev (map (PChar a) t) ++ seen).
Proof.
  intros H p Hp. apply in_app_or in Hp as [Hp|Hp].
  - apply in_rev in Hp. apply in_map_iff in Hp as (d & <- & _). cbn [piece_addr]. intros Hpre. apply prefix_length in Hpre.
    rewrite app_length in Hpre. cbn in Hpre. lia.
  - intros Hpre. apply (H p Hp). eapply prefix_trans; [|exact Hpre]. now exists [(j, n)].
Qed.
Lemma expr_addr a i c : node_fine c = true -> exprs a ++ [expr c] = exprs (a ++ [(i, node_of c)]).
Proof. intros H. unfold exprs. rewrite map_app. cbn. now rewrite (expr_node c H). Qed.

Lemma nested_break path c : is_break c = true -> flat_map item_marks (nested_subs wd up lo path c) = [].
Proof. destruct c as [cn [|] [|] [|] ctl|]; try discriminate. reflexivity. Qed.
Lemma nested_marks : forall e a x seen, tidy e = true -> fine e = true -> filled e = true ->
  (forall b, prefix a b -> E b = Some x) -> prefix x a -> x <> a -> fresh a seen ->
  flat_map item_marks (nested_subs wd up lo (exprs a) e) = smarks seen (flat a e).
Proof.
  induction e as [n at_ t cs tl IH|tl] using xml_ind'; intros a x seen Ht Hf Hfl HE Hxa Hne Hfr; [|reflexivity].
  cbn [nested_subs]. rewrite flat_eq, flat_map_app, smarks_app, entity_toks, smarks_text; [|unfold below_entity; rewrite (HE a (prefix_refl a))|exact Hfr].
  2:{ apply negb_true_iff, not_true_iff_false. now rewrite addr_eqb_true. }
  f_equal. rewrite Forall_forall in IH.
  apply (sub_kids a (fun c => nested_subs wd up lo (exprs a ++ [expr c]) c)); auto.
  - intros c _ Hb. now apply nested_break.
  - intros j c seen0 Hj Hb Htc Hfc Hflc Hnc Hfr0. rewrite (expr_addr a (0 + j) c Hnc).
    apply (IH c (nth_error_In _ _ Hj) _ x); auto.
    + intros b Hb'. apply HE. eapply prefix_trans; [|exact Hb']. now eexists.
    + eapply prefix_trans; [exact Hxa|]. now eexists.
    + intros C. apply prefix_length in Hxa. rewrite C, app_length in Hxa. cbn in Hxa. lia.
  - intros j m _. now apply fresh_kid.
Qed.
Lemma sub_break path c : is_break c = true -> flat_map item_marks (sub_items sp wd up lo rp path c) = [].
Proof. destruct c as [cn [|] [|] [|] ctl|]; try discriminate. reflexivity. Qed.
Lemma sub_marks : forall e a seen, a <> [] -> tidy e = true -> fine e = true -> filled e = true -> clear a -> whole L a e -> fresh a seen ->
  flat_map item_marks (sub_items sp wd up lo rp (exprs a) e) = smarks seen (flat a e).
Proof.
  induction e as [n at_ t cs tl IH|tl] using xml_ind'; intros a seen Ha Ht Hf Hfl Hc Hw Hfr; [|reflexivity].
  cbn [sub_items]. rewrite flat_eq, flat_map_app, smarks_app, marks_toks_none.
  rewrite (ent_entity sp rp L a n at_ t cs tl Hw).
  assert (Hb : below_entity a = false).
  { unfold below_entity. destruct (ent a) eqn:Ee.
    - rewrite (E_at sp rp L a a (prefix_refl a) Ha Hc Ee), addr_eqb_refl. reflexivity.
    - now rewrite (E_none sp rp L a Hc Ee). }
  rewrite smarks_none by now left. f_equal. rewrite Forall_forall in IH.
  apply (sub_kids a (fun c => if ent a then nested_subs wd up lo (exprs a ++ [expr c]) c else sub_items sp wd up lo rp (exprs a ++ [expr c]) c)); auto.
  - intros c _ Hbr. destruct (ent a); [now apply nested_break|now apply sub_break].
  - intros j c seen0 Hj Hbr Htc Hfc Hflc Hnc Hfr0. rewrite (expr_addr a (0 + j) c Hnc).
    destruct (ent a) eqn:Ee.
    + apply (nested_marks c _ a); auto.
      * intros b Hb'. apply E_at; auto. eapply prefix_trans; [|exact Hb']. now eexists.
      * now eexists.
      * intros C. apply (f_equal (@length _)) in C. rewrite app_length in C. cbn in C. lia.
    + apply (IH c (nth_error_In _ _ Hj)); auto.
      * now destruct a.
      * intros b [q Hq] Hb1 Hb2. destruct q as [|y q] using rev_ind.
        { rewrite app_nil_r in Hq. congruence. }
        rewrite app_assoc in Hq. apply app_inj_tail in Hq as [Hq _].
        destruct (addr_eq_dec b a) as [->|Hne]; [exact Ee|]. apply Hc; [exists q; exact Hq|exact Hb1|exact Hne].
      * apply (whole_kid L a n at_ t cs tl); auto.
  - intros j m _. now apply fresh_kid.
Qed.
Lemma container_sub_marks n at_ t cs : L = flat [] (Elem n at_ t cs []) ->
  tidy (Elem n at_ t cs []) = true -> fine (Elem n at_ t cs []) = true -> filled (Elem n at_ t cs []) = true ->
  flat_map item_marks (container_sub_items sp wd up lo rp (Elem n at_ t cs [])) = smarks [] (flat [] (Elem n at_ t cs [])).
Proof.
  intros HL Ht Hf Hfl. cbn [container_sub_items]. rewrite flat_eq, !flat_map_app, smarks_app, !marks_toks_none.
  cbn [map]. rewrite app_nil_r, smarks_none by (left; reflexivity). f_equal.
  assert (Hw : whole L [] (Elem n at_ t cs [])) by (intros b c _; rewrite HL; reflexivity).
  change (fun c => untagged (lb_of c) ++ sub_items sp wd up lo rp [expr c] c ++ untagged (toks wd up lo (xtail c)))
    with (fun c => untagged (lb_of c) ++ sub_items sp wd up lo rp (exprs [] ++ [expr c]) c ++ untagged (toks wd up lo (xtail c))).
  apply (sub_kids [] (fun c => sub_items sp wd up lo rp (exprs [] ++ [expr c]) c)); auto.
  - intros c _ Hb. now apply sub_break.
  - intros j c seen0 Hj Hbr Htc Hfc Hflc Hnc Hfr0. rewrite (expr_addr [] (0 + j) c Hnc). apply sub_marks; auto.
    + discriminate.
    + intros b [q Hq] Hb1 Hb2. destruct q as [|y q] using rev_ind.
      { rewrite app_nil_r in Hq. congruence. }
      rewrite app_assoc in Hq. apply app_inj_tail in Hq as [Hq _]. destruct b; [congruence|discriminate].
    + apply (whole_kid L [] n at_ t cs []); auto.
  - intros j m _. apply fresh_kid. intros p [].
Qed.
End Subs.
