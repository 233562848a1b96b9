From Verif Require Import Base ModelTags ModelTokenize ModelXml ModelTei ProofXml ProofTags ProofTokenize SpecTeiRead.

Section Read.
Variables sp wd up lo : N -> bool.
Variable root_paths : list str.
Notation append_token := (append_token sp).
Notation append_text := (append_text sp wd up lo).
Notation read_elem := (read_elem sp wd up lo root_paths).
Notation inner := (inner wd up lo).
Notation toks := (toks wd up lo).
Notation tagged_items := (tagged_items sp wd up lo root_paths).
Notation is_entity := (is_entity sp root_paths).

(** the children loop as a separate function *)
Fixpoint read_children (path : list str) (cs : list xml) (b : buf) : res buf :=
  match cs with
  | [] => Ok b
  | c :: cs' =>
      let b' := if is_lb c then flush b else b in
      do frag <- node_to_tag_expression c ;;
      do b'' <- read_elem c (path ++ [frag]) b' ;;
      read_children path cs' b''
  end.

Lemma read_elem_eq n a text cs tl path b :
  read_elem (Elem n a text cs tl) path b =
  (let prev := b_tag b in
   let b1 :=
     if is_tagging sp root_paths path text cs
     then if truthy prev then set_next_sub_tag b (path_tag path)
          else set_next_tag b (path_tag path)
     else b in
   let b2 := append_text b1 text in
   do b3 <- read_children path cs b2 ;;
   let b4 := if truthy prev then reset_next_sub_tag b3 else reset_next_tag b3 in
   Ok (append_text b4 tl)).
Proof.
  cbn [ModelTei.read_elem]. cbv zeta.
  match goal with |- bind ?x _ = bind ?y _ => assert (E : x = y) end.
  { generalize (append_text
      (if is_tagging sp root_paths path text cs
       then if truthy (b_tag b) then set_next_sub_tag b (path_tag path)
            else set_next_tag b (path_tag path)
       else b) text).
    induction cs as [|c cs IH]; intros b0; [reflexivity|].
    cbn [read_children]. destruct (node_to_tag_expression c); [|reflexivity].
    cbn [bind]. destruct (read_elem c _ _); [|reflexivity]. cbn [bind]. apply IH. }
  rewrite E. reflexivity.
Qed.

(* ---------------------------------------------------------------- *)
(** items produced so far: every flushed line is ended by a break *)
Definition it (t : tok) : item := ITok (tx t) (tag t).
Definition lines_items (ls : list line) : list item :=
  flat_map (fun l => map it l ++ [ILb]) ls.
Definition items (b : buf) : list item :=
  lines_items (b_lines b) ++ map it (b_toks b).

Lemma map_it_set_last_ws w l : map it (set_last_ws w l) = map it l.
Proof.
  induction l as [|t l IH]; [reflexivity|]. destruct l; [reflexivity|].
  change (it t :: map it (set_last_ws w (t0 :: l)) = it t :: map it (t0 :: l)). now rewrite IH.
Qed.

Definition next_of (t : ostr) : ostr := add_tag_prefix (strip_tag_prefix t) (Some I_PREFIX).

Lemma items_append_token b s : items (append_token b s) = items b ++ [ITok s (b_tag b)].
Proof.
  unfold items, ModelTei.append_token. cbn [b_lines b_toks].
  rewrite map_app, map_it_set_last_ws, app_assoc. reflexivity.
Qed.
Lemma tag_append_token b s : b_tag (append_token b s) = next_of (b_tag b).
Proof. reflexivity. Qed.

(** items with the tag threaded as the buffer does *)
Fixpoint emit (t : ostr) (l : list (option str)) : list item :=
  match l with
  | [] => []
  | None :: l' => ILb :: emit t l'
  | Some s :: l' => ITok s t :: emit (next_of t) l'
  end.
Fixpoint after (t : ostr) (l : list (option str)) : ostr :=
  match l with
  | [] => t
  | None :: l' => after t l'
  | Some s :: l' => after (next_of t) l'
  end.

Lemma emit_app t l1 l2 : emit t (l1 ++ l2) = emit t l1 ++ emit (after t l1) l2.
Proof. revert t. induction l1 as [|[s|] l1 IH]; intros t; cbn; [reflexivity| |]; now rewrite IH. Qed.
Lemma after_app t l1 l2 : after t (l1 ++ l2) = after (after t l1) l2.
Proof. revert t. induction l1 as [|[s|] l1 IH]; intros t; cbn; [reflexivity| |]; now rewrite IH. Qed.

Lemma append_text_items b text :
  items (append_text b text) = items b ++ emit (b_tag b) (toks text) /\
  b_tag (append_text b text) = after (b_tag b) (toks text).
Proof.
  unfold ModelTei.append_text, SpecTeiRead.toks.
  destruct text as [|c text].
  - rewrite (tokenize_glue wd up lo). cbn. now rewrite app_nil_r.
  - generalize (tokenize_text wd up lo (c :: text)). intros l. revert b.
    induction l as [|s l IH]; intros b; cbn [fold_left map emit after].
    + now rewrite app_nil_r.
    + destruct (IH (append_token b s)) as [H1 H2]. rewrite H1, H2, items_append_token, tag_append_token.
      rewrite <- app_assoc. split; reflexivity.
Qed.

Lemma flush_items b : items (flush b) = items b ++ [ILb].
Proof.
  unfold items, flush, lines_items. cbn [b_lines b_toks]. rewrite flat_map_app. cbn.
  rewrite !app_nil_r. now rewrite app_assoc.
Qed.

Definition lbs (c : xml) (b : buf) : buf := if is_lb c then flush b else b.
Lemma lbs_items c b : items (lbs c b) = items b ++ emit (b_tag b) (lb_of c) /\ b_tag (lbs c b) = b_tag b.
Proof.
  unfold lbs, lb_of. destruct (is_lb c); cbn.
  - split; [apply flush_items|reflexivity].
  - rewrite app_nil_r. split; reflexivity.
Qed.

Lemma next_truthy t : truthy t = true -> strip_tag_prefix t <> Some [] -> truthy (next_of t) = true /\ strip_tag_prefix (next_of t) = strip_tag_prefix t.
Proof.
  intros H H2. unfold next_of.
  destruct (strip_tag_prefix t) as [[|c s]|] eqn:E.
  - exfalso; apply H2; reflexivity.
  - split; reflexivity.
  - exfalso. destruct t as [[|c s]|]; try discriminate.
    unfold strip_tag_prefix in E. cbn [split_tag_prefix] in E.
    destruct (starts_with B_PREFIX (c :: s)), (starts_with I_PREFIX (c :: s)); discriminate.
Qed.

(** a proper tag: has a non-empty value *)
Definition proper (t : ostr) : Prop := truthy t = true /\ strip_tag_prefix t <> Some [].
Lemma next_proper t : proper t -> proper (next_of t) /\ strip_tag_prefix (next_of t) = strip_tag_prefix t.
Proof.
  intros [H1 H2]. destruct (next_truthy t H1 H2) as [H3 H4].
  repeat split; auto. congruence.
Qed.
Lemma proper_begin v : v <> [] -> proper (Some (B_PREFIX ++ v)).
Proof.
  destruct v as [|c v]; [congruence|]. intros _. split; [reflexivity|].
  change (Some (c :: v) <> Some []). discriminate.
Qed.
Lemma after_proper l : forall t, proper t -> proper (after t l).
Proof. induction l as [|[s|] l IH]; intros t H; cbn; auto. apply IH. now apply next_proper. Qed.

(* ---------------------------------------------------------------- *)
(** inside an entity the tag just continues *)
Lemma read_tagged : forall e path b b',
  proper (b_tag b) -> read_elem e path b = Ok b' ->
  items b' = items b ++ emit (b_tag b) (inner e ++ toks (xtail e)) /\
  b_tag b' = after (b_tag b) (inner e ++ toks (xtail e)).
Proof.
  induction e as [n a text cs tl IH|tl] using xml_ind'; intros path b b' Hp Hr; [|discriminate].
  rewrite read_elem_eq in Hr. cbv zeta in Hr.
  assert (Hpt : truthy (b_tag b) = true) by apply Hp.
  rewrite Hpt in Hr.
  set (b1 := if is_tagging sp root_paths path text cs then set_next_sub_tag b (path_tag path) else b) in Hr.
  assert (H1 : items b1 = items b /\ b_tag b1 = b_tag b).
  { unfold b1. destruct (is_tagging sp root_paths path text cs); split; reflexivity. }
  destruct H1 as [H1i H1t].
  destruct (append_text_items b1 text) as [H2i H2t].
  set (b2 := append_text b1 text) in *.
  destruct (read_children path cs b2) as [b3|] eqn:E3; [|discriminate]. cbn [bind] in Hr.
  assert (H3 : forall cs b2 b3, Forall (fun e => forall path b b', proper (b_tag b) -> read_elem e path b = Ok b' ->
      items b' = items b ++ emit (b_tag b) (inner e ++ toks (xtail e)) /\
      b_tag b' = after (b_tag b) (inner e ++ toks (xtail e))) cs ->
      proper (b_tag b2) -> read_children path cs b2 = Ok b3 ->
      let l := flat_map (fun c => lb_of c ++ inner c ++ toks (xtail c)) cs in
      items b3 = items b2 ++ emit (b_tag b2) l /\ b_tag b3 = after (b_tag b2) l).
  { clear. intros cs. induction cs as [|c cs IHc]; intros b2 b3 HF Hp H.
    - injection H as <-. cbn. now rewrite app_nil_r.
    - cbn [read_children] in H. destruct (node_to_tag_expression c) as [frag|]; [|discriminate].
      cbn [bind] in H. fold (lbs c b2) in H.
      destruct (read_elem c (path ++ [frag]) (lbs c b2)) as [b4|] eqn:E4; [|discriminate].
      cbn [bind] in H. inversion HF as [|? ? Hc HF']; subst.
      destruct (lbs_items c b2) as [L1 L2].
      assert (Hp2 : proper (b_tag (lbs c b2))) by now rewrite L2.
      destruct (Hc _ _ _ Hp2 E4) as [C1 C2].
      assert (Hp4 : proper (b_tag b4)) by (rewrite C2; now apply after_proper).
      destruct (IHc b4 b3 HF' Hp4 H) as [D1 D2].
      cbn [flat_map]. rewrite D1, D2, C1, C2, L1, L2.
      rewrite !emit_app, !after_app, <- !app_assoc.
      assert (A : after (b_tag b2) (lb_of c) = b_tag b2)
        by (unfold lb_of; destruct (is_lb c); reflexivity).
      rewrite A. split; reflexivity. }
  assert (Hp2 : proper (b_tag b2)) by (rewrite H2t, H1t; now apply after_proper).
  destruct (H3 cs b2 b3 IH Hp2 E3) as [H3i H3t]. injection Hr as <-.
  destruct (append_text_items (reset_next_sub_tag b3) tl) as [H4i H4t].
  rewrite H4i, H4t. cbn [b_tag reset_next_sub_tag xtail].
  change (items (reset_next_sub_tag b3)) with (items b3).
  rewrite H3i, H3t, H2i, H2t, H1i, H1t. cbn [SpecTeiRead.inner].
  rewrite !emit_app, !after_app, <- !app_assoc. split; reflexivity.
Qed.

Lemma emit_none l : emit None l = untagged l /\ after None l = None.
Proof. induction l as [|[s|] l [H1 H2]]; cbn; split; auto; now f_equal. Qed.

Lemma emit_inside v l : v <> [] -> emit (Some (I_PREFIX ++ v)) l = with_tag (I_PREFIX ++ v) l /\
  after (Some (I_PREFIX ++ v)) l = Some (I_PREFIX ++ v).
Proof.
  intros Hv. assert (N : next_of (Some (I_PREFIX ++ v)) = Some (I_PREFIX ++ v))
    by (destruct v; [congruence|reflexivity]).
  unfold with_tag.
  induction l as [|[s|] l [H1 H2]]; cbn [emit after map]; [split; reflexivity| |].
  - rewrite N. split; [f_equal; exact H1|exact H2].
  - split; [f_equal; exact H1|exact H2].
Qed.
Lemma emit_begin v l : v <> [] -> emit (Some (B_PREFIX ++ v)) l = entity v l.
Proof.
  intros Hv. assert (N : next_of (Some (B_PREFIX ++ v)) = Some (I_PREFIX ++ v))
    by (destruct v; [congruence|reflexivity]).
  induction l as [|[s|] l IH]; cbn [emit entity]; [reflexivity| |].
  - f_equal. rewrite N. now apply emit_inside.
  - now f_equal.
Qed.

Lemma join_nonempty path x : x <> [] -> join_path (path ++ [x]) <> [].
Proof.
  intros H. induction path as [|p path IH]; cbn [app join_path]; [exact H|].
  destruct (path ++ [x]) eqn:E; [destruct path; discriminate|].
  intros C. apply app_eq_nil in C as [_ C]. discriminate.
Qed.
Lemma expr_nonempty e s : named e = true -> node_to_tag_expression e = Ok s -> e <> Misc (xtail e) -> s <> [].
Proof.
  destruct e as [n a t cs tl|tl]; [|intros _ _ C; exfalso; apply C; reflexivity]. intros Hn H _.
  cbn in Hn. apply andb_true_iff in Hn as [Hn _]. destruct n; [discriminate|].
  cbn in H. destruct a as [|[k v] [|]]; inversion H; discriminate.
Qed.

(** outside any entity *)
Lemma read_children_untagged path : forall cs b2 b3,
  Forall (fun e => forall (path : list str) (x : str) (b b' : buf), x <> [] -> named e = true -> b_tag b = None ->
     read_elem e (path ++ [x]) b = Ok b' ->
     items b' = items b ++ tagged_items (path ++ [x]) e ++ untagged (toks (xtail e)) /\
     b_tag b' = None) cs ->
  forallb named cs = true -> b_tag b2 = None ->
  read_children path cs b2 = Ok b3 ->
  items b3 = items b2 ++ flat_map (fun c =>
     untagged (lb_of c) ++ tagged_items (path ++ [expr c]) c ++ untagged (toks (xtail c))) cs /\
  b_tag b3 = None.
Proof.
  induction cs as [|c cs IHc]; intros b2 b3 HF Hn Ht H.
  - injection H as <-. cbn. now rewrite app_nil_r.
  - cbn [read_children] in H. destruct (node_to_tag_expression c) as [frag|] eqn:Ef; [|discriminate].
    cbn [bind] in H. fold (lbs c b2) in H.
    destruct (read_elem c (path ++ [frag]) (lbs c b2)) as [b4|] eqn:E4; [|discriminate].
    cbn [bind] in H. inversion HF as [|? ? Hc HF']; subst.
    cbn in Hn. apply andb_true_iff in Hn as [Hnc Hn].
    destruct (lbs_items c b2) as [L1 L2]. rewrite Ht in L1, L2.
    assert (Hfr : frag <> []).
    { apply (expr_nonempty c frag Hnc Ef). intros C. rewrite C in E4. discriminate. }
    destruct (Hc path frag _ _ Hfr Hnc L2 E4) as [C1 C2].
    destruct (IHc b4 b3 HF' Hn C2 H) as [D1 D2]. split; [|exact D2].
    rewrite D1, C1, L1. cbn [flat_map]. unfold expr. rewrite Ef.
    rewrite (proj1 (emit_none _)). rewrite <- !app_assoc. reflexivity.
Qed.

Lemma read_untagged : forall (e : xml) (path : list str) (x : str) (b b' : buf),
  x <> [] -> named e = true -> b_tag b = None -> read_elem e (path ++ [x]) b = Ok b' ->
  items b' = items b ++ tagged_items (path ++ [x]) e ++ untagged (toks (xtail e)) /\
  b_tag b' = None.
Proof.
  induction e as [n a text cs tl IH|tl] using xml_ind'; intros path x b b' Hx Hn Ht Hr; [|discriminate].
  set (p := path ++ [x]) in *.
  assert (Hjp : join_path p <> []) by now apply join_nonempty.
  assert (Hpt : path_tag p = Some (join_path p)) by (unfold p, path_tag; destruct path; reflexivity).
  clearbody p.
  rewrite read_elem_eq in Hr. cbv zeta in Hr. rewrite Ht in Hr. cbn [truthy] in Hr.
  cbn in Hn. apply andb_true_iff in Hn as [_ Hn].
  assert (Ent : is_entity p (Elem n a text cs tl) = is_tagging sp root_paths p text cs).
  { unfold SpecTeiRead.is_entity, is_tagging, has_direct_text. rewrite Hpt. reflexivity. }
  cbn [SpecTeiRead.tagged_items]. rewrite Ent.
  destruct (is_tagging sp root_paths p text cs) eqn:ET.
  - (* entity: compare with the same element read with the begin tag set *)
    clear Ent. rewrite Hpt in Hr.
    set (b1 := set_next_tag b (Some (join_path p))) in Hr.
    assert (Hb1 : b_tag b1 = Some (B_PREFIX ++ join_path p)).
    { unfold b1. cbn. destruct (join_path p); [congruence|reflexivity]. }
    assert (Hpr : proper (b_tag b1)).
    { rewrite Hb1. now apply proper_begin. }
    destruct (append_text_items b1 text) as [H2i H2t].
    set (b2 := append_text b1 text) in *.
    destruct (read_children p cs b2) as [b3|] eqn:E3; [|discriminate]. cbn [bind] in Hr.
    assert (H3 : forall cs b2 b3, proper (b_tag b2) -> read_children p cs b2 = Ok b3 ->
        let l := flat_map (fun c => lb_of c ++ inner c ++ toks (xtail c)) cs in
        items b3 = items b2 ++ emit (b_tag b2) l /\ b_tag b3 = after (b_tag b2) l).
    { clear. intros cs. induction cs as [|c cs IHc]; intros b2 b3 Hp H.
      - injection H as <-. cbn. now rewrite app_nil_r.
      - cbn [read_children] in H. destruct (node_to_tag_expression c) as [frag|]; [|discriminate].
        cbn [bind] in H. fold (lbs c b2) in H.
        destruct (read_elem c (p ++ [frag]) (lbs c b2)) as [b4|] eqn:E4; [|discriminate].
        cbn [bind] in H.
        destruct (lbs_items c b2) as [L1 L2].
        assert (Hp2 : proper (b_tag (lbs c b2))) by now rewrite L2.
        destruct (read_tagged _ _ _ _ Hp2 E4) as [C1 C2].
        assert (Hp4 : proper (b_tag b4)) by (rewrite C2; now apply after_proper).
        destruct (IHc b4 b3 Hp4 H) as [D1 D2].
        cbn [flat_map]. rewrite D1, D2, C1, C2, L1, L2.
        rewrite !emit_app, !after_app, <- !app_assoc.
        assert (A : after (b_tag b2) (lb_of c) = b_tag b2)
          by (unfold lb_of; destruct (is_lb c); reflexivity).
        rewrite A. split; reflexivity. }
    assert (Hp2 : proper (b_tag b2)) by (rewrite H2t; now apply after_proper).
    destruct (H3 cs b2 b3 Hp2 E3) as [H3i H3t]. injection Hr as <-.
    destruct (append_text_items (reset_next_tag b3) tl) as [H4i H4t].
    rewrite H4i, H4t. cbn [b_tag reset_next_tag xtail].
    change (items (reset_next_tag b3)) with (items b3).
    rewrite (proj1 (emit_none _)), (proj2 (emit_none _)).
    rewrite H3i, H2i. change (items b1) with (items b). rewrite H2t.
    rewrite <- (emit_begin (join_path p)) by assumption.
    rewrite <- Hb1. cbn [SpecTeiRead.inner]. rewrite emit_app.
    split; [|reflexivity]. rewrite <- !app_assoc. reflexivity.
  - destruct (append_text_items b text) as [H2i H2t].
    set (b2 := append_text b text) in *.
    destruct (read_children p cs b2) as [b3|] eqn:E3; [|discriminate]. cbn [bind] in Hr.
    rewrite Ht in H2i, H2t. rewrite (proj1 (emit_none _)) in H2i. rewrite (proj2 (emit_none _)) in H2t.
    destruct (read_children_untagged p cs b2 b3 IH Hn H2t E3) as [H3i H3t].
    injection Hr as <-.
    destruct (append_text_items (reset_next_tag b3) tl) as [H4i H4t].
    rewrite H4i, H4t. cbn [b_tag reset_next_tag xtail].
    change (items (reset_next_tag b3)) with (items b3).
    rewrite (proj1 (emit_none _)), (proj2 (emit_none _)), H3i, H2i.
    split; [|reflexivity]. rewrite <- !app_assoc. reflexivity.
Qed.

Lemma read_container : forall e b b',
  named e = true -> b_tag b = None -> read_elem e [] b = Ok b' ->
  items b' = items b ++ container_items sp wd up lo root_paths e /\ b_tag b' = None.
Proof.
  intros [n a text cs tl|tl] b b' Hn Ht Hr; [|discriminate].
  rewrite read_elem_eq in Hr. cbv zeta in Hr. rewrite Ht in Hr. cbn [truthy] in Hr.
  cbn in Hn. apply andb_true_iff in Hn as [_ Hn].
  set (b1 := if is_tagging sp root_paths [] text cs then set_next_tag b (path_tag []) else b) in Hr.
  assert (H1 : items b1 = items b /\ b_tag b1 = None).
  { unfold b1. destruct (is_tagging sp root_paths [] text cs); split; auto. }
  destruct H1 as [H1i H1t].
  destruct (append_text_items b1 text) as [H2i H2t].
  set (b2 := append_text b1 text) in *.
  destruct (read_children [] cs b2) as [b3|] eqn:E3; [|discriminate]. cbn [bind] in Hr.
  rewrite H1t in H2i, H2t. rewrite (proj1 (emit_none _)) in H2i. rewrite (proj2 (emit_none _)) in H2t.
  assert (HF : Forall (fun e => forall (path : list str) (x : str) (b b' : buf), x <> [] -> named e = true -> b_tag b = None ->
     read_elem e (path ++ [x]) b = Ok b' ->
     items b' = items b ++ tagged_items (path ++ [x]) e ++ untagged (toks (xtail e)) /\
     b_tag b' = None) cs).
  { apply Forall_forall. intros e _. apply read_untagged. }
  destruct (read_children_untagged [] cs b2 b3 HF Hn H2t E3) as [H3i H3t].
  injection Hr as <-.
  destruct (append_text_items (reset_next_tag b3) tl) as [H4i H4t].
  rewrite H4i, H4t. cbn [b_tag reset_next_tag].
  change (items (reset_next_tag b3)) with (items b3).
  rewrite (proj1 (emit_none _)), (proj2 (emit_none _)), H3i, H2i, H1i.
  split; [|reflexivity]. cbn [container_items app]. rewrite <- !app_assoc. reflexivity.
Qed.

(* ---------------------------------------------------------------- *)
(** when loading succeeds *)
Lemma read_loadable : forall e path b, loadable e = true <-> exists b', read_elem e path b = Ok b'.
Proof.
  induction e as [n a text cs tl IH|tl] using xml_ind'; intros path b.
  2:{ cbn. split; [discriminate|intros [b' H]; discriminate]. }
  rewrite read_elem_eq. cbv zeta.
  match goal with |- context [read_children path cs ?x] => set (b2 := x) end.
  assert (H : loadable (Elem n a text cs tl) = true <-> exists b3, read_children path cs b2 = Ok b3).
  { cbn [loadable]. generalize b2. clear b2. induction IH as [|c cs Hc HF IHc]; intros b2; cbn [forallb read_children].
    - split; eauto.
    - rewrite !andb_true_iff. rewrite (IHc b2).
      destruct c as [cn ca ct ccs ctl|ctl].
      + cbn [node_to_tag_expression]. destruct ca as [|[k v] [|kv2 ca]]; cbn [length Nat.leb bind].
        * destruct (read_elem _ _ _) as [b''|] eqn:E; cbn [bind].
          -- rewrite <- (IHc b''). rewrite (IHc b2). split; [tauto|]. intros H. repeat split; auto.
             apply (Hc (path ++ [cn]) (if is_lb (Elem cn [] ct ccs ctl) then flush b2 else b2)); eauto.
          -- split; [|intros [? ?]; discriminate]. intros [[_ Hl] _].
             apply (Hc (path ++ [cn]) (if is_lb (Elem cn [] ct ccs ctl) then flush b2 else b2)) in Hl as [? Hl].
             congruence.
        * destruct (read_elem _ _ _) as [b''|] eqn:E; cbn [bind].
          -- rewrite <- (IHc b''). rewrite (IHc b2). split; [tauto|]. intros H. repeat split; auto.
             eapply Hc. eauto.
          -- split; [|intros [? ?]; discriminate]. intros [[_ Hl] _].
             eapply Hc in Hl as [? Hl]. rewrite Hl in E. discriminate.
        * split; [intros [[? _] _]; discriminate|intros [? ?]; discriminate].
      + cbn. split; [intros [[? _] _]; discriminate|intros [? ?]; discriminate]. }
  rewrite H. destruct (read_children path cs b2); cbn [bind]; split; intros [? ?]; eauto; discriminate.
Qed.

(* ---------------------------------------------------------------- *)
(** sub tags *)
Notation nested_subs := (nested_subs wd up lo).
Notation sub_items := (sub_items sp wd up lo root_paths).
Notation nonblank := (nonblank sp).
Definition its (t : tok) : item := ITok (tx t) (sub t).
Definition sitems (b : buf) : list item :=
  flat_map (fun l => map its l ++ [ILb]) (b_lines b) ++ map its (b_toks b).

Lemma map_its_set_last_ws w l : map its (set_last_ws w l) = map its l.
Proof.
  induction l as [|t l IH]; [reflexivity|]. destruct l; [reflexivity|].
  change (its t :: map its (set_last_ws w (t0 :: l)) = its t :: map its (t0 :: l)). now rewrite IH.
Qed.
Lemma sitems_append_token b s : sitems (append_token b s) = sitems b ++ [ITok s (b_sub b)].
Proof.
  unfold sitems, ModelTei.append_token. cbn [b_lines b_toks].
  rewrite map_app, map_its_set_last_ws, app_assoc. reflexivity.
Qed.
Lemma append_text_sitems b text :
  sitems (append_text b text) = sitems b ++ emit (b_sub b) (toks text) /\
  b_sub (append_text b text) = after (b_sub b) (toks text).
Proof.
  unfold ModelTei.append_text, SpecTeiRead.toks.
  destruct text as [|c text].
  - rewrite (tokenize_glue wd up lo). cbn. now rewrite app_nil_r.
  - generalize (tokenize_text wd up lo (c :: text)). intros l. revert b.
    induction l as [|s l IH]; intros b; cbn [fold_left map emit after].
    + now rewrite app_nil_r.
    + destruct (IH (append_token b s)) as [H1 H2]. rewrite H1, H2, sitems_append_token.
      rewrite <- app_assoc. split; reflexivity.
Qed.
Lemma lbs_sitems c b : sitems (lbs c b) = sitems b ++ untagged (lb_of c) /\ b_sub (lbs c b) = b_sub b /\ b_tag (lbs c b) = b_tag b.
Proof.
  unfold lbs, lb_of. destruct (is_lb c); cbn.
  - repeat split; auto. unfold sitems, flush. cbn [b_lines b_toks]. rewrite flat_map_app. cbn.
    rewrite !app_nil_r. now rewrite app_assoc.
  - rewrite app_nil_r. repeat split; reflexivity.
Qed.

Lemma nonblank_app l1 l2 : nonblank (l1 ++ l2) = nonblank l1 ++ nonblank l2.
Proof. apply filter_app. Qed.

Lemma emit_text t l : flat_map item_text (emit t (map Some l)) = concat l.
Proof. revert t. induction l as [|s l IH]; intros t; cbn; [reflexivity|]. now rewrite IH. Qed.

Lemma blank_concat l : blank sp (concat l) = forallb (blank sp) l.
Proof. unfold blank. induction l as [|s l IH]; cbn; [reflexivity|]. now rewrite forallb_app, IH. Qed.

Lemma emit_blank t text : blank sp text = true -> nonblank (emit t (toks text)) = [].
Proof.
  intros H. rewrite <- (glue_concat wd up lo text) in H. rewrite blank_concat in H.
  unfold SpecTeiRead.toks. rewrite tokenize_glue.
  revert t H. generalize (glue wd up lo text). induction l as [|s l IH]; intros t H; cbn; [reflexivity|].
  cbn in H. apply andb_true_iff in H as [H1 H2]. rewrite H1. cbn. now apply IH.
Qed.

Lemma emit_sub_start text cs p x t :
  let path := (p ++ [x]) in x <> [] ->
  nonblank (emit (if is_tagging sp root_paths path text cs
                  then add_tag_prefix (path_tag path) (Some B_PREFIX) else t) (toks text))
  = nonblank (entity (join_path path) (toks text)).
Proof.
  intros path Hx.
  assert (Hjp : join_path path <> []) by now apply join_nonempty.
  assert (Hpt : path_tag path = Some (join_path path)) by (unfold path, path_tag; destruct p; reflexivity).
  rewrite Hpt. assert (A : add_tag_prefix (Some (join_path path)) (Some B_PREFIX) = Some (B_PREFIX ++ join_path path))
    by (destruct (join_path path); [congruence|reflexivity]).
  destruct (is_tagging sp root_paths path text cs) eqn:E.
  - rewrite A. now rewrite emit_begin.
  - unfold is_tagging, has_direct_text in E. apply orb_false_iff in E as [E _].
    apply orb_false_iff in E as [E _]. apply negb_false_iff in E.
    rewrite <- (emit_begin (join_path path)) by assumption. now rewrite !emit_blank.
Qed.

(** inside an entity *)
Lemma read_nested : forall (e : xml) (path : list str) (x : str) (b b' : buf),
  x <> [] -> named e = true -> proper (b_tag b) ->
  read_elem e (path ++ [x]) b = Ok b' ->
  nonblank (sitems b') = nonblank (sitems b) ++ nonblank (nested_subs (path ++ [x]) e ++ untagged (toks (xtail e)))
  /\ b_sub b' = None.
Proof.
  induction e as [n a text cs tl IH|tl] using xml_ind'; intros path x b b' Hx Hn Hp Hr; [|discriminate].
  rewrite read_elem_eq in Hr. cbv zeta in Hr.
  assert (Hpt : truthy (b_tag b) = true) by apply Hp. rewrite Hpt in Hr.
  cbn in Hn. apply andb_true_iff in Hn as [_ Hn].
  set (b1 := if is_tagging sp root_paths (path ++ [x]) text cs
             then set_next_sub_tag b (path_tag (path ++ [x])) else b) in Hr.
  assert (H1 : sitems b1 = sitems b /\ b_tag b1 = b_tag b /\
     b_sub b1 = if is_tagging sp root_paths (path ++ [x]) text cs
                then add_tag_prefix (path_tag (path ++ [x])) (Some B_PREFIX) else b_sub b).
  { unfold b1. destruct (is_tagging sp root_paths (path ++ [x]) text cs); repeat split; reflexivity. }
  destruct H1 as (H1i & H1t & H1s).
  destruct (append_text_sitems b1 text) as [H2i H2s].
  destruct (append_text_items b1 text) as [_ H2t].
  set (b2 := append_text b1 text) in *.
  destruct (read_children (path ++ [x]) cs b2) as [b3|] eqn:E3; [|discriminate]. cbn [bind] in Hr.
  assert (Hp2 : proper (b_tag b2)) by (rewrite H2t, H1t; now apply after_proper).
  assert (H3 : forall q cs b2 b3, Forall (fun e => forall (path : list str) (x : str) (b b' : buf),
      x <> [] -> named e = true -> proper (b_tag b) ->
      read_elem e (path ++ [x]) b = Ok b' ->
      nonblank (sitems b') = nonblank (sitems b) ++ nonblank (nested_subs (path ++ [x]) e ++ untagged (toks (xtail e)))
      /\ b_sub b' = None) cs ->
      forallb named cs = true -> proper (b_tag b2) -> read_children q cs b2 = Ok b3 ->
      nonblank (sitems b3) = nonblank (sitems b2) ++ nonblank (flat_map (fun c =>
           untagged (lb_of c) ++ nested_subs (q ++ [expr c]) c ++ untagged (toks (xtail c))) cs)).
  { clear. intros q cs. induction cs as [|c cs IHc]; intros b2 b3 HF Hn Hp H.
    - injection H as <-. cbn. now rewrite app_nil_r.
    - cbn [read_children] in H. destruct (node_to_tag_expression c) as [frag|] eqn:Ef; [|discriminate].
      cbn [bind] in H. fold (lbs c b2) in H.
      destruct (read_elem c (q ++ [frag]) (lbs c b2)) as [b4|] eqn:E4; [|discriminate].
      cbn [bind] in H. inversion HF as [|? ? Hc HF']; subst.
      cbn in Hn. apply andb_true_iff in Hn as [Hnc Hn].
      destruct (lbs_sitems c b2) as (L1 & L2 & L3).
      assert (Hpl : proper (b_tag (lbs c b2))) by now rewrite L3.
      assert (Hfr : frag <> []).
      { apply (expr_nonempty c frag Hnc Ef). intros C. rewrite C in E4. discriminate. }
      destruct (Hc q frag _ _ Hfr Hnc Hpl E4) as [C1 C2].
      assert (Hp4 : proper (b_tag b4)).
      { destruct (read_tagged _ _ _ _ Hpl E4) as [_ T]. rewrite T. now apply after_proper. }
      rewrite (IHc b4 b3 HF' Hn Hp4 H). rewrite C1, L1. cbn [flat_map]. unfold expr. rewrite Ef.
      rewrite !nonblank_app. rewrite <- !app_assoc. reflexivity. }
  pose proof (H3 (path ++ [x]) cs b2 b3 IH Hn Hp2 E3) as H3i. injection Hr as <-.
  destruct (append_text_sitems (reset_next_sub_tag b3) tl) as [H4i H4s].
  rewrite H4i, H4s. cbn [b_sub reset_next_sub_tag xtail].
  change (sitems (reset_next_sub_tag b3)) with (sitems b3).
  rewrite (proj1 (emit_none _)), (proj2 (emit_none _)). split; [|reflexivity].
  cbn [SpecTeiRead.nested_subs]. rewrite !nonblank_app, H3i, H2i, H1i, !nonblank_app.
  rewrite H1s, emit_sub_start by assumption. rewrite <- !app_assoc. reflexivity.
Qed.

Lemma read_children_nested q : forall cs b2 b3,
  forallb named cs = true -> proper (b_tag b2) -> b_sub b2 = None -> read_children q cs b2 = Ok b3 ->
  nonblank (sitems b3) = nonblank (sitems b2) ++ nonblank (flat_map (fun c =>
       untagged (lb_of c) ++ nested_subs (q ++ [expr c]) c ++ untagged (toks (xtail c))) cs)
  /\ b_sub b3 = None.
Proof.
  intros cs. induction cs as [|c cs IHc]; intros b2 b3 Hn Hp Hs H.
  - injection H as <-. cbn. now rewrite app_nil_r.
  - cbn [read_children] in H. destruct (node_to_tag_expression c) as [frag|] eqn:Ef; [|discriminate].
    cbn [bind] in H. fold (lbs c b2) in H.
    destruct (read_elem c (q ++ [frag]) (lbs c b2)) as [b4|] eqn:E4; [|discriminate].
    cbn [bind] in H.
    cbn in Hn. apply andb_true_iff in Hn as [Hnc Hn].
    destruct (lbs_sitems c b2) as (L1 & L2 & L3).
    assert (Hpl : proper (b_tag (lbs c b2))) by now rewrite L3.
    assert (Hfr : frag <> []).
    { apply (expr_nonempty c frag Hnc Ef). intros C. rewrite C in E4. discriminate. }
    destruct (read_nested c q frag _ _ Hfr Hnc Hpl E4) as [C1 C2].
    assert (Hp4 : proper (b_tag b4)).
    { destruct (read_tagged _ _ _ _ Hpl E4) as [_ T]. rewrite T. now apply after_proper. }
    destruct (IHc b4 b3 Hn Hp4 C2 H) as [D1 D2]. split; [|exact D2].
    rewrite D1, C1, L1. cbn [flat_map]. unfold expr. rewrite Ef.
    rewrite !nonblank_app. rewrite <- !app_assoc. reflexivity.
Qed.

(** outside any entity *)
Lemma read_subs_children q : forall cs b2 b3,
  Forall (fun e => forall (path : list str) (x : str) (b b' : buf),
     x <> [] -> named e = true -> b_tag b = None -> b_sub b = None ->
     read_elem e (path ++ [x]) b = Ok b' ->
     nonblank (sitems b') = nonblank (sitems b) ++ nonblank (sub_items (path ++ [x]) e ++ untagged (toks (xtail e)))
     /\ b_sub b' = None) cs ->
  forallb named cs = true -> b_tag b2 = None -> b_sub b2 = None -> read_children q cs b2 = Ok b3 ->
  nonblank (sitems b3) = nonblank (sitems b2) ++ nonblank (flat_map (fun c =>
       untagged (lb_of c) ++ sub_items (q ++ [expr c]) c ++ untagged (toks (xtail c))) cs)
  /\ b_sub b3 = None.
Proof.
  intros cs. induction cs as [|c cs IHc]; intros b2 b3 HF Hn Ht Hs H.
  - injection H as <-. cbn. now rewrite app_nil_r.
  - cbn [read_children] in H. destruct (node_to_tag_expression c) as [frag|] eqn:Ef; [|discriminate].
    cbn [bind] in H. fold (lbs c b2) in H.
    destruct (read_elem c (q ++ [frag]) (lbs c b2)) as [b4|] eqn:E4; [|discriminate].
    cbn [bind] in H. inversion HF as [|? ? Hc HF']; subst.
    cbn in Hn. apply andb_true_iff in Hn as [Hnc Hn].
    destruct (lbs_sitems c b2) as (L1 & L2 & L3). rewrite Ht in L3. rewrite Hs in L2.
    assert (Hfr : frag <> []).
    { apply (expr_nonempty c frag Hnc Ef). intros C. rewrite C in E4. discriminate. }
    destruct (Hc q frag _ _ Hfr Hnc L3 L2 E4) as [C1 C2].
    destruct (read_untagged c q frag _ _ Hfr Hnc L3 E4) as [_ T4].
    destruct (IHc b4 b3 HF' Hn T4 C2 H) as [D1 D2]. split; [|exact D2].
    rewrite D1, C1, L1. cbn [flat_map]. unfold expr. rewrite Ef.
    rewrite !nonblank_app. rewrite <- !app_assoc. reflexivity.
Qed.

Lemma read_subs : forall (e : xml) (path : list str) (x : str) (b b' : buf),
  x <> [] -> named e = true -> b_tag b = None -> b_sub b = None ->
  read_elem e (path ++ [x]) b = Ok b' ->
  nonblank (sitems b') = nonblank (sitems b) ++ nonblank (sub_items (path ++ [x]) e ++ untagged (toks (xtail e)))
  /\ b_sub b' = None.
Proof.
  induction e as [n a text cs tl IH|tl] using xml_ind'; intros path x b b' Hx Hn Ht Hs Hr; [|discriminate].
  set (p := path ++ [x]) in *.
  assert (Hjp : join_path p <> []) by now apply join_nonempty.
  assert (Hpt : path_tag p = Some (join_path p)) by (unfold p, path_tag; destruct path; reflexivity).
  clearbody p.
  rewrite read_elem_eq in Hr. cbv zeta in Hr. rewrite Ht in Hr. cbn [truthy] in Hr.
  cbn in Hn. apply andb_true_iff in Hn as [_ Hn].
  assert (Ent : is_entity p (Elem n a text cs tl) = is_tagging sp root_paths p text cs).
  { unfold SpecTeiRead.is_entity, is_tagging, has_direct_text. rewrite Hpt. reflexivity. }
  cbn [SpecTeiRead.sub_items]. rewrite Ent.
  set (b1 := if is_tagging sp root_paths p text cs then set_next_tag b (path_tag p) else b) in Hr.
  assert (H1 : sitems b1 = sitems b /\ b_sub b1 = None).
  { unfold b1. destruct (is_tagging sp root_paths p text cs); split; auto. }
  destruct H1 as [H1i H1s].
  destruct (append_text_sitems b1 text) as [H2i H2s].
  destruct (append_text_items b1 text) as [_ H2t].
  set (b2 := append_text b1 text) in *.
  rewrite H1s in H2i, H2s. rewrite (proj1 (emit_none _)) in H2i. rewrite (proj2 (emit_none _)) in H2s.
  destruct (read_children p cs b2) as [b3|] eqn:E3; [|discriminate]. cbn [bind] in Hr.
  assert (H3 : nonblank (sitems b3) = nonblank (sitems b2) ++ nonblank (flat_map (fun c =>
       untagged (lb_of c) ++ (if is_tagging sp root_paths p text cs then nested_subs (p ++ [expr c]) c
                              else sub_items (p ++ [expr c]) c) ++ untagged (toks (xtail c))) cs)
     /\ b_sub b3 = None).
  { destruct (is_tagging sp root_paths p text cs).
    - apply read_children_nested; auto. rewrite H2t. apply after_proper.
      unfold b1. cbn [b_tag set_next_tag]. rewrite Hpt.
      assert (A : add_tag_prefix (Some (join_path p)) (Some B_PREFIX) = Some (B_PREFIX ++ join_path p))
        by (destruct (join_path p); [congruence|reflexivity]).
      rewrite A. now apply proper_begin.
    - apply read_subs_children; auto. rewrite H2t. unfold b1. rewrite Ht. apply emit_none. }
  destruct H3 as [H3i H3s]. injection Hr as <-.
  destruct (append_text_sitems (reset_next_tag b3) tl) as [H4i H4s].
  rewrite H4i, H4s. cbn [b_sub reset_next_tag xtail].
  change (sitems (reset_next_tag b3)) with (sitems b3). rewrite H3s.
  rewrite (proj1 (emit_none _)), (proj2 (emit_none _)). split; [|reflexivity].
  rewrite !nonblank_app, H3i, H2i, H1i, !nonblank_app. rewrite <- !app_assoc. reflexivity.
Qed.

Lemma read_container_subs : forall e b b',
  named e = true -> b_tag b = None -> b_sub b = None -> read_elem e [] b = Ok b' ->
  nonblank (sitems b') = nonblank (sitems b) ++ nonblank (container_sub_items sp wd up lo root_paths e)
  /\ b_sub b' = None.
Proof.
  intros [n a text cs tl|tl] b b' Hn Ht Hs Hr; [|discriminate].
  rewrite read_elem_eq in Hr. cbv zeta in Hr. rewrite Ht in Hr. cbn [truthy] in Hr.
  cbn in Hn. apply andb_true_iff in Hn as [_ Hn].
  set (b1 := if is_tagging sp root_paths [] text cs then set_next_tag b (path_tag []) else b) in Hr.
  assert (H1 : sitems b1 = sitems b /\ b_tag b1 = None /\ b_sub b1 = None).
  { unfold b1. destruct (is_tagging sp root_paths [] text cs); repeat split; auto. }
  destruct H1 as (H1i & H1t & H1s).
  destruct (append_text_sitems b1 text) as [H2i H2s].
  destruct (append_text_items b1 text) as [_ H2t].
  set (b2 := append_text b1 text) in *.
  rewrite H1s in H2i, H2s. rewrite H1t in H2t.
  rewrite (proj1 (emit_none _)) in H2i. rewrite (proj2 (emit_none _)) in H2s, H2t.
  destruct (read_children [] cs b2) as [b3|] eqn:E3; [|discriminate]. cbn [bind] in Hr.
  assert (HF : Forall (fun e => forall (path : list str) (x : str) (b b' : buf),
     x <> [] -> named e = true -> b_tag b = None -> b_sub b = None ->
     read_elem e (path ++ [x]) b = Ok b' ->
     nonblank (sitems b') = nonblank (sitems b) ++ nonblank (sub_items (path ++ [x]) e ++ untagged (toks (xtail e)))
     /\ b_sub b' = None) cs).
  { apply Forall_forall. intros e _. apply read_subs. }
  destruct (read_subs_children [] cs b2 b3 HF Hn H2t H2s E3) as [H3i H3s].
  injection Hr as <-.
  destruct (append_text_sitems (reset_next_tag b3) tl) as [H4i H4s].
  rewrite H4i, H4s. cbn [b_sub reset_next_tag].
  change (sitems (reset_next_tag b3)) with (sitems b3). rewrite H3s.
  rewrite (proj1 (emit_none _)), (proj2 (emit_none _)). split; [|reflexivity].
  cbn [container_sub_items app]. rewrite !nonblank_app, H3i, H2i, H1i, !nonblank_app.
  rewrite <- !app_assoc. reflexivity.
Qed.

(* ---------------------------------------------------------------- *)
(** lines already flushed do not matter *)
Definition add_lines (L : list line) (b : buf) : buf :=
  mkBuf (L ++ b_lines b) (b_toks b) (b_tag b) (b_sub b).
Lemma append_text_add_lines L b t : append_text (add_lines L b) t = add_lines L (append_text b t).
Proof.
  unfold ModelTei.append_text. destruct t; [reflexivity|].
  generalize (tokenize_text wd up lo (n :: t)). intros l. revert b.
  induction l as [|s l IH]; intros b; [reflexivity|]. cbn [fold_left].
  rewrite <- IH. reflexivity.
Qed.
Lemma flush_add_lines L b : flush (add_lines L b) = add_lines L (flush b).
Proof. unfold flush, add_lines. cbn. now rewrite app_assoc. Qed.

Lemma read_add_lines L : forall e path b,
  read_elem e path (add_lines L b) = do b' <- read_elem e path b ;; Ok (add_lines L b').
Proof.
  induction e as [n a text cs tl IH|tl] using xml_ind'; intros path b; [|reflexivity].
  rewrite !read_elem_eq. cbv zeta. change (b_tag (add_lines L b)) with (b_tag b).
  match goal with |- context [append_text (if ?c then if ?d then ?x else ?y else ?z) text] =>
    match goal with |- bind (read_children _ _ (append_text ?bb text)) _ = _ =>
    assert (E : bb = add_lines L (if is_tagging sp root_paths path text cs
        then if truthy (b_tag b) then set_next_sub_tag b (path_tag path)
             else set_next_tag b (path_tag path) else b)) end end.
  { destruct (is_tagging sp root_paths path text cs), (truthy (b_tag b)); reflexivity. }
  rewrite E. rewrite append_text_add_lines.
  generalize (append_text (if is_tagging sp root_paths path text cs
        then if truthy (b_tag b) then set_next_sub_tag b (path_tag path)
             else set_next_tag b (path_tag path) else b) text). intros b2.
  assert (H : read_children path cs (add_lines L b2) = do b' <- read_children path cs b2 ;; Ok (add_lines L b')).
  { revert b2. clear E. induction IH as [|c cs Hc HF IHc]; intros b2; [reflexivity|].
    cbn [read_children]. destruct (node_to_tag_expression c) as [frag|]; [|reflexivity].
    cbn [bind].
    assert (E2 : (if is_lb c then flush (add_lines L b2) else add_lines L b2)
             = add_lines L (if is_lb c then flush b2 else b2)).
    { destruct (is_lb c); [apply flush_add_lines|reflexivity]. }
    rewrite E2, Hc.
    destruct (read_elem c (path ++ [frag]) (if is_lb c then flush b2 else b2)); [|reflexivity].
    cbn [bind]. apply IHc. }
  rewrite H. destruct (read_children path cs b2) as [b3|]; [|reflexivity]. cbn [bind].
  f_equal. destruct (truthy (b_tag b)); rewrite <- append_text_add_lines; reflexivity.
Qed.
End Read.
