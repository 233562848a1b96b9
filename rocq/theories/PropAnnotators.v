(** C11: annotators never change the text *)
From Coq Require Import Permutation Sorted.
From Verif Require Import Base ModelTags ProofTags ModelTokenize ModelXml ModelTei ModelTeiDoc SpecTeiRead SpecTeiWrite SpecTeiDoc ProofTeiDoc PropTeiWrite PropTeiDoc
  ModelJoined ModelTarget ModelFuzzyMatch ModelWordMatch ModelPostAnnot PropPostAnnot ModelLineNumbers ModelExpand PropExpand ModelSegmentation PropSegmentation
  ModelReference ModelSimpleMatch PropSimpleMatch ModelMatch PropMatch ModelAnnotators.
Open Scope nat_scope.

(* ---------------------------------------------------------------- *)
(** ** Specification *)
Definition removes (a : annotator) : bool := match a with ARemoveUntagged => true | _ => false end.
(** [same_layout]: the same lines of tokens with the same texts and white space.
    What is left of a line: some tokens left out *)
Inductive left_out {A} (R : A -> A -> Prop) : list A -> list A -> Prop :=
| lo_nil : left_out R [] []
| lo_keep x y l l' : R x y -> left_out R l l' -> left_out R (x :: l) (y :: l')
| lo_drop x l l' : left_out R l l' -> left_out R (x :: l) l'.

(* ---------------------------------------------------------------- *)
Lemma map_layout f d : (forall t, same_text t (f t)) -> same_layout d (map (map f) d).
Proof. intros H. apply Forall2_map_r. intros l. apply Forall2_map_r. exact H. Qed.
Lemma update_nth_layout f d i j : (forall t, same_text t (f t)) -> same_layout d (update_nth i (update_nth j f) d).
Proof.
  intros H. apply update_nth_Forall2; [intros; apply Forall2_refl', same_text_refl|]. intros l _.
  apply update_nth_Forall2; [apply same_text_refl|intros; apply H].
Qed.
Section Layout.
Variable b : libs.
Notation sp := (lb_sp b).

Lemma loop_layout c so fuel ts d d' :
  annotate_loop sp (lb_wd b) (lb_lower b) (lb_escape b) (lb_re_search b) (lb_chunks b) (lb_all b) c so fuel ts d = Ok d' -> same_layout d d'.
Proof.
  eapply (loop_Q sp (lb_wd b) (lb_lower b) (lb_escape b) (lb_re_search b) (lb_chunks b) (lb_all b) c so ts same_layout).
  - apply same_layout_refl.
  - apply same_layout_trans.
  - intros d0 d1 p n f _ H _ _. eapply same_layout_trans; [exact H|]. unfold set_main. destruct (cf_preserve_sub c); [|apply set_tag_layout].
    apply update_nth_layout. apply set_tag_only_text.
  - intros d0 d1 p n f _ H _ _. eapply same_layout_trans; [exact H|apply set_tag_layout].
  - apply incl_refl.
Qed.
Lemma fold_set_layout {A} (f : A -> nat * nat) (g : A -> ostr) (p : A -> bool) lv l : forall d,
  same_layout d (fold_left (fun d x => if p x then set_tag sp lv (f x) (g x) d else d) l d).
Proof.
  induction l as [|x l IH]; intros d; [apply same_layout_refl|]. cbn [fold_left]. eapply same_layout_trans; [|apply IH].
  destruct (p x); [apply set_tag_layout|apply same_layout_refl].
Qed.
Lemma fold_set_layout' {A} (f : A -> nat * nat) (g : A -> ostr) lv l d :
  same_layout d (fold_left (fun d x => set_tag sp lv (f x) (g x) d) l d).
Proof. exact (fold_set_layout f g (fun _ => true) lv l d). Qed.
Lemma simple_layout c so fuel ts d d' :
  simple_annotate sp (lb_wd b) (lb_lower b) (lb_escape b) (lb_re_search b) (lb_chunks b) (lb_all b) c so fuel ts d = Ok d' -> same_layout d d'.
Proof.
  unfold simple_annotate. destruct (annotate_loop _ _ _ _ _ _ _ _ _ _ _ _) as [d1|] eqn:E; [|discriminate]. cbn [bind].
  intros [= <-]. apply loop_layout in E. eapply same_layout_trans; [exact E|]. destruct (cf_extend c && negb so); [|apply same_layout_refl].
  unfold extend_lines. generalize (line_words sp 0 d1) as pss. intros pss. clear. revert d1. induction pss as [|ps pss IH]; intros d1; [apply same_layout_refl|].
  cbn [fold_left]. eapply same_layout_trans; [|apply IH]. unfold extend_line. apply (fold_set_layout fst snd (fun x => truthy (snd x))).
Qed.
Lemma sub_tag_layout c fuel ts d d' :
  sub_tag_annotate sp (lb_wd b) (lb_lower b) (lb_escape b) (lb_re_search b) (lb_chunks b) (lb_all b) c fuel ts d = Ok d' -> same_layout d d'.
Proof.
  unfold sub_tag_annotate. destruct (simple_annotate _ _ _ _ _ _ _ _ _ _ _ _) as [d1|] eqn:E; [|discriminate]. cbn [bind]. intros [= <-].
  apply simple_layout in E. eapply same_layout_trans; [|eapply same_layout_trans; [exact E|]]; apply map_layout; intros t.
  - unfold clear_main. destruct (cf_preserve_sub c); split; reflexivity.
  - split; reflexivity.
Qed.
Lemma references_layout c d d' : annotate_references (lb_ref_search b) (lb_ref_regexes b) sp c d = Ok d' -> same_layout d d'.
Proof.
  unfold annotate_references. intros H. eapply (foldM_inv (fun x => same_layout d x)); [|apply same_layout_refl|exact H].
  intros d1 g d2 _ H1 H2. eapply (foldM_inv (fun x => same_layout d x)); [|exact H1|exact H2].
  intros d3 f d4 _ H3 H4. unfold ref_step in H4. destruct (f _) as [ts|]; [|discriminate]. injection H4 as <-.
  eapply same_layout_trans; [exact H3|]. apply (fold_set_layout fst snd (fun x => truthy (snd x))).
Qed.
(** *** The complex matcher *)
Section Matching.
Variable sf cf : fm_filter.
Variable gap : Z.
Variable prefix : bool.
Notation alpha := (lb_alpha b).
Notation apply_matches := (apply_matches sp alpha (lb_lower b) (lb_blocks b) sf cf gap prefix).
Lemma apply_subs_layout subs ps d d' : apply_subs sp alpha (lb_lower b) (lb_blocks b) sf cf gap prefix subs ps d = Ok d' -> same_layout d d'.
Proof.
  unfold apply_subs. match goal with |- context [foldM ?g ?x ?l] => destruct (foldM g x l) as [[d1 mt]|] eqn:E; [|discriminate] end.
  cbn [bind fst]. intros [= <-].
  change (same_layout d (fst (d1, mt))). eapply (foldM_inv (fun st => same_layout d (fst st))); [| |exact E]; [|apply same_layout_refl].
  intros [d2 m2] a [d3 m3] _ H1 H2. unfold apply_sub in H2. cbn [fst snd] in *.
  destruct (find_next _ _ _ _ _ _ _ _ _ _ _ _ _) as [[[ms mt'] f]|]; [|discriminate]. cbn [bind] in H2. injection H2 as <- _.
  eapply same_layout_trans; [exact H1|]. apply (fold_set_layout' fst (fun x => tag_of prefix (ms_name a) (snd x))).
Qed.
Lemma apply_matches_layout a ms d d' : apply_matches a ms d = Ok d' -> same_layout d d'.
Proof.
  unfold ModelMatch.apply_matches. match goal with |- context [foldM ?g ?x ?l] => destruct (foldM g x l) as [[[d1 f1] a1]|] eqn:E; [|discriminate] end.
  cbn [bind fst]. intros [= <-].
  change (same_layout d (fst (fst (d1, f1, a1)))). eapply (foldM_inv (fun st => same_layout d (fst (fst st)))); [| |exact E]; [|apply same_layout_refl].
  intros st m st' _ H1 H2. unfold apply_match in H2.
  assert (F : same_layout d (fst (fst (fold_left (apply_token sp prefix (ma_name a)) (match_tokens m) st)))).
  { apply (fold_inv (fun st => same_layout d (fst (fst st)))); [|exact H1]. intros [[d2 f2] a2] p _ H. unfold apply_token.
    destruct (truthy _); [exact H|]. cbn [fst] in *. eapply same_layout_trans; [exact H|apply set_tag_layout]. }
  destruct (fold_left _ _ st) as [[d2 f2] a2]. cbn [fst] in F.
  destruct (ma_subs a) as [|s subs]; [injection H2 as <-; exact F|].
  match type of H2 with bind ?x _ = _ => destruct x as [d3|] eqn:E2; [|discriminate] end. cbn [bind] in H2. injection H2 as <-. cbn [fst].
  eapply same_layout_trans; [exact F|]. eapply apply_subs_layout. exact E2.
Qed.
Lemma target_loop_layout a value fuel : forall d cm f mt d' cm' mt',
  target_loop sp alpha (lb_lower b) (lb_blocks b) sf cf gap prefix fuel a value d cm f mt = Ok (d', cm', mt') -> same_layout d d'.
Proof.
  induction fuel as [|fuel IH]; intros d cm f mt d' cm' mt' H; [discriminate|]. cbn [target_loop] in H.
  destruct (find_next _ _ _ _ _ _ _ _ _ _ _ _ _) as [[[found mt1] f1]|]; [|discriminate]. cbn [bind] in H.
  destruct (sorted_matches found) as [|m ms]; [injection H as <- _ _; apply same_layout_refl|].
  match type of H with bind ?x _ = _ => destruct x as [d1|] eqn:E1; [|discriminate] end. cbn [bind] in H.
  assert (L1 : same_layout d d1).
  { destruct cm as [[ca cms]|]; [|injection E1 as <-; apply same_layout_refl]. destruct (_ <=? _)%Z; [|injection E1 as <-; apply same_layout_refl].
    eapply apply_matches_layout. exact E1. }
  match type of H with bind ?x _ = _ => destruct x as [[d2 cm2]|] eqn:E2; [|discriminate] end. cbn [bind] in H.
  assert (L2 : same_layout d1 d2).
  { destruct (ma_next a); [injection E2 as <- _; apply same_layout_refl|].
    match type of E2 with bind ?x _ = _ => destruct x as [d3|] eqn:E3; [|discriminate] end. cbn [bind] in E2. injection E2 as <- _.
    eapply apply_matches_layout. exact E3. }
  eapply same_layout_trans; [exact L1|]. eapply same_layout_trans; [exact L2|].
  destruct (ma_multiple a); [eapply IH; exact H|injection H as <- _ _; apply same_layout_refl].
Qed.
Lemma matching_layout fuel ts d d' :
  matching_annotate sp alpha (lb_lower b) (lb_blocks b) sf cf gap prefix fuel ts d = Ok d' -> same_layout d d'.
Proof.
  unfold matching_annotate. destruct (sequences _ _ _ _) as [seqs|]; [|discriminate]. cbn [bind].
  match goal with |- context [foldM ?g ?x ?l] => destruct (foldM g x l) as [st|] eqn:E; [|discriminate] end. cbn [bind]. intros [= <-].
  match type of E with foldM ?g (d, ?x, ?y) _ = _ => eapply (foldM_inv (fun st => same_layout d (fst (fst st)))); [| |exact E]; [|apply same_layout_refl] end.
  intros [[d1 c1] m1] a [[d2 c2] m2] _ H1 H2. cbn [fst] in *. unfold target_step in H2.
  destruct (njstr_value _ _ _) as [v|]; [|discriminate]. cbn [bind] in H2.
  match type of H2 with bind ?x _ = _ => destruct x as [[[d3 c3] m3]|] eqn:E3; [|discriminate] end. cbn [bind] in H2. injection H2 as <- _ _.
  eapply same_layout_trans; [exact H1|]. eapply target_loop_layout. exact E3.
Qed.
End Matching.
(** *** The others *)
Lemma reshape_layout (l : list tok) : forall d, Forall2 same_text (concat d) l -> same_layout d (reshape (map (@length tok) d) l).
Proof.
  intros d. revert l. induction d as [|x d IH]; intros l H; [constructor|]. cbn [map reshape concat] in *.
  apply Forall2_app_inv_l in H as (l1 & l2 & H1 & H2 & ->).
  assert (E : length x = length l1) by (clear -H1; induction H1; cbn; congruence). rewrite E, firstn_app, Nat.sub_diag, firstn_O, app_nil_r, firstn_all.
  rewrite skipn_app, skipn_all, Nat.sub_diag. cbn [skipn app]. constructor; [exact H1|]. now apply IH.
Qed.
Lemma tag_pending_text v l : forall first, Forall2 same_text l (tag_pending sp v first l).
Proof.
  induction l as [|t l IH]; intros first; [constructor|]. cbn [tag_pending]. destruct (is_space sp t); constructor; auto.
  - apply same_text_refl.
  - apply set_tag_only_text.
Qed.
Lemma same_refl (l : list tok) : Forall2 same_text l l.
Proof. apply Forall2_refl', same_text_refl. Qed.
Lemma expand_previous_text enabled l : forall pending, Forall2 same_text (pending ++ l) (expand_previous sp enabled pending l).
Proof.
  induction l as [|t l IH]; intros pending; cbn [expand_previous]; [rewrite app_nil_r; apply same_refl|].
  assert (G : Forall2 same_text (pending ++ t :: l) (expand_previous sp enabled (pending ++ [t]) l)).
  { specialize (IH (pending ++ [t])). now rewrite <- app_assoc in IH. }
  destruct (is_space sp t); [exact G|]. destruct (tag_or_preserved_value LMain t) as [[|c v]|]; [exact G| |exact G].
  destruct (negb _); [|destruct (negb _)].
  - apply Forall2_app; [apply same_refl|]. constructor; [apply same_text_refl|apply (IH [])].
  - apply Forall2_app; [apply same_refl|]. constructor; [apply same_text_refl|apply (IH [])].
  - apply Forall2_app; [apply tag_pending_text|]. constructor; [apply set_tag_only_text|apply (IH [])].
Qed.
Lemma expand_following_text enabled l : forall previous, Forall2 same_text l (expand_following sp enabled previous l).
Proof.
  induction l as [|t l IH]; intros previous; cbn [expand_following]; [constructor|].
  destruct (is_space sp t); [constructor; [apply same_text_refl|apply IH]|].
  destruct (tag_or_preserved_value LMain t) as [[|c v]|]; [| constructor; [apply same_text_refl|apply IH] |];
    (destruct previous as [[|c' v']|]; constructor; try apply IH; (apply same_text_refl || apply set_tag_only_text)).
Qed.
Lemma map_state_text {S A} (R : A -> A -> Prop) (f : S -> A -> S * A) l : (forall s a, R a (snd (f s a))) ->
  forall s, Forall2 R l (snd (map_state f s l)).
Proof.
  intros H. induction l as [|a l IH]; intros s; cbn [map_state]; [constructor|].
  pose proof (H s a) as Ha. destruct (f s a) as [s1 a']. specialize (IH s1). destruct (map_state f s1 l) as [s2 l']. cbn [snd] in *. now constructor.
Qed.
Lemma merge_group_layout group lv d : same_layout d (merge_group sp group lv d).
Proof.
  unfold merge_group. apply map_state_text. intros s l. apply map_state_text. intros cur t. unfold merge_group_step.
  destruct (is_space sp t); [apply same_text_refl|]. destruct (match lv with LMain => false | LSub => _ end); [apply same_text_refl|].
  destruct (tag_or_preserved_value lv t) as [[|c v]|]; [|apply same_text_refl|]; (destruct (truthy cur); [apply set_tag_only_text|apply same_text_refl]).
Qed.

Theorem C11_one a d d' : removes a = false -> annotate_one b a d = Ok d' -> same_layout d d'.
Proof.
  intros Hr H. destruct a; cbn [annotate_one] in H; try discriminate Hr.
  - eapply simple_layout. exact H.
  - eapply sub_tag_layout. exact H.
  - eapply matching_layout. exact H.
  - unfold annotate_line_numbers in H. destruct (find_line_numbers _ _ _ _) as [ts|]; [|discriminate]. injection H as <-.
    apply (fold_set_layout' (fun x => x) (fun _ => Some (c_tag c))).
  - injection H as <-. apply reshape_layout. apply (expand_previous_text enabled (concat d) []).
  - injection H as <-. apply reshape_layout. apply expand_following_text.
  - injection H as <-. apply C21_layout.
  - eapply references_layout. exact H.
  - injection H as <-. apply merge_group_layout.
  - injection H as <-. apply C53_layout.
Qed.
(** No sequence of annotators changes the text, its order or the lines. *)
Theorem C11_layout l d d' : forallb (fun a => negb (removes a)) l = true -> annotate_all b l d = Ok d' -> same_layout d d'.
Proof.
  intros Hl H. rewrite forallb_forall in Hl. eapply (foldM_inv (fun x => same_layout d x)); [|apply same_layout_refl|exact H].
  intros d1 a d2 Ha H1 H2. eapply same_layout_trans; [exact H1|]. eapply C11_one; [|exact H2]. specialize (Hl a Ha). now destruct (removes a).
Qed.
End Layout.

(** ** Removing untagged text *)
Lemma left_out_same {A} (R : A -> A -> Prop) l l' : Forall2 R l l' -> left_out R l l'.
Proof. induction 1; constructor; auto. Qed.
Lemma left_out_trans {A} (R : A -> A -> Prop) l1 l2 l3 : (forall x y z, R x y -> R y z -> R x z) ->
  left_out R l1 l2 -> left_out R l2 l3 -> left_out R l1 l3.
Proof.
  intros T H. revert l3. induction H as [|x y l l' Hxy H IH|x l l' H IH]; intros l3 K.
  - exact K.
  - inversion K as [|? z ? l3' Hyz K'|? ? ? K']; subst; [constructor; [eapply T; eassumption|now apply IH]|]. constructor. now apply IH.
  - constructor. now apply IH.
Qed.
Lemma survivors_left_out sp l : left_out same_text l (survivors sp l).
Proof.
  unfold survivors. generalize (@nil tok). induction l as [|t l IH]; intros b0; cbn [with_before filter map]; [constructor|].
  destruct (survives sp _ _); cbn [map snd]; [constructor; [apply same_text_refl|apply IH]|constructor; apply IH].
Qed.
Lemma layout_concat d d' : same_layout d d' -> Forall2 same_text (concat d) (concat d').
Proof. induction 1; cbn [concat]; [constructor|]. now apply Forall2_app. Qed.
Lemma annotate_app b l1 l2 d d' : annotate_all b (l1 ++ l2) d = Ok d' ->
  exists d1, annotate_all b l1 d = Ok d1 /\ annotate_all b l2 d1 = Ok d'.
Proof.
  unfold annotate_all. revert d. induction l1 as [|a l1 IH]; intros d H; [exists d; auto|]. cbn [app foldM] in *.
  destruct (annotate_one b a d) as [d1|]; [|discriminate]. cbn [bind] in *. now apply IH.
Qed.
(** With one removal (as in the reference and affiliation models): every line has the
    words that were tagged then, and the spaces after them. *)
Theorem C11_removed_partial b l1 l2 d d' : forallb (fun a => negb (removes a)) (l1 ++ l2) = true ->
  annotate_all b (l1 ++ ARemoveUntagged :: l2) d = Ok d' ->
  exists d1, annotate_all b l1 d = Ok d1 /\ same_layout d d1 /\
    Forall (fun l => Forall2 same_text (survivors (lb_sp b) (concat d1)) l /\ left_out same_text (concat d) l) d'.
Proof.
  rewrite forallb_app. intros Hl H. apply andb_true_iff in Hl as [Hl1 Hl2]. apply annotate_app in H as (d1 & H1 & H2).
  exists d1. split; [exact H1|]. pose proof (C11_layout _ _ _ _ Hl1 H1) as L1. split; [exact L1|].
  unfold annotate_all in H2. cbn [foldM annotate_one bind] in H2.
  apply (C11_layout _ _ _ _ Hl2) in H2. destruct (C09_lines (lb_sp b) d1) as (n & E & _). rewrite E in H2.
  assert (Hall : forall l, In l (repeat (survivors (lb_sp b) (concat d1)) n) -> l = survivors (lb_sp b) (concat d1)) by (intros l Hin; eapply repeat_spec; exact Hin).
  clear E. induction H2 as [|x y ls d' H H' IH]; [constructor|]. constructor; [|apply IH; intros l Hin; apply Hall; now right].
  rewrite (Hall x (or_introl eq_refl)) in H. split; [exact H|].
  eapply left_out_trans; [apply same_text_trans|apply left_out_same, layout_concat; exact L1|].
  eapply left_out_trans; [apply same_text_trans|apply (survivors_left_out (lb_sp b))|]. now apply left_out_same.
Qed.
(** In a document of one line, no sequence of annotators does more than leaving out tokens. *)
Theorem C11_one_line b l d d' : length d <= 1 -> annotate_all b l d = Ok d' ->
  length d' <= 1 /\ left_out same_text (concat d) (concat d').
Proof.
  intros Hd H. eapply (foldM_inv (fun x => length x <= 1 /\ left_out same_text (concat d) (concat x))); [| |exact H].
  2:{ split; [exact Hd|]. apply left_out_same, same_refl. }
  intros d1 a d2 _ [H1 H2] H3. destruct (removes a) eqn:Er.
  - destruct a; try discriminate. cbn [annotate_one] in H3. injection H3 as <-.
    destruct (C09_lines (lb_sp b) d1) as (n & E & Hn & _). rewrite E, repeat_length. split; [(unfold doc, line in *; lia)|].
    eapply left_out_trans; [apply same_text_trans|exact H2|]. destruct n as [|[|n]]; [| |(unfold doc, line in *; lia)].
    + cbn. clear. induction (concat d1); constructor; auto.
    + cbn [repeat concat]. rewrite app_nil_r. apply survivors_left_out.
  - apply (C11_one _ _ _ _ Er) in H3.
    assert (Len : length d1 = length d2) by (clear -H3; induction H3 as [|x y l1 l2 _ _ IH]; [reflexivity|]; cbn [length]; now rewrite IH).
    split; [(unfold doc, line in *; lia)|].
    eapply left_out_trans; [apply same_text_trans|exact H2|]. now apply left_out_same, layout_concat.
Qed.

(** ** From file to file *)
Lemma prepared_layout sp always p fields ps no d : same_layout d (prepare_document sp always p fields ps no d).
Proof.
  assert (M : forall f lv d, same_layout d (map_token_tags f lv d)).
  { intros f lv d0. apply map_layout. intros t. unfold map_token_tag. destruct (ostreq _ _); [apply same_text_refl|].
    destruct lv; split; reflexivity. }
  assert (P : same_layout d (apply_preserved_fields sp always d)).
  { apply Forall2_map_r. intros l. unfold apply_preserved_line. generalize (seq 0 (length l)) as js. intros js. revert l.
    induction js as [|j js IH]; intros l; [apply same_refl|]. cbn [fold_left]. eapply Forall2_trans'; [apply same_text_trans| |apply IH].
    unfold apply_preserved_at. destruct (nth_error l j) as [t|]; [|apply same_refl]. cbn zeta. destruct (omem _ _); [apply set_tag_line_text|apply same_refl]. }
  assert (T : forall d1, same_layout d1 (prepare_tags p fields always ps no d1)).
  { intros d1. unfold prepare_tags. destruct (p || nonempty always), (negb ps), (nonempty no); cbn zeta; auto;
      (eapply same_layout_trans; apply M). }
  unfold prepare_document. cbn zeta. destruct (nonempty always); [|apply T]. eapply same_layout_trans; [exact P|apply T].
Qed.
(** Loading, annotating and saving a document with one container keeps all of its text. *)
Theorem C11_saved b up lo node_ok mapping keep path o l root root' c :
  path <> [] -> named root = true -> find_all path root = [c] -> forallb (fun a => negb (removes a)) l = true ->
  annotated_tree b up lo node_ok mapping keep path o l root = Ok root' -> full_text root' = full_text root.
Proof.
  intros Hp Hn Hc Hl. unfold annotated_tree, annotated_document.
  destruct (load_document _ _ _ _ _ _ _ _) as [d|] eqn:E; [|discriminate]. cbn [bind].
  destruct (annotate_all _ _ _) as [d'|] eqn:E2; [|discriminate]. cbn [bind]. intros H.
  eapply C08_single; [exact Hp|exact Hn|exact Hc|exact E| |exact H].
  eapply same_layout_trans; [apply prepared_layout|eapply C11_layout; [exact Hl|exact E2]].
Qed.

(* ---------------------------------------------------------------- *)
(** ** Examples *)
Definition ex_libs : libs :=
  mkLibs ascii_space ascii_word ascii_alpha ascii_digit lower_ascii (fun s => s) (fun _ => None) no_regex exact_chunks exact_all
    ex_blocks no_regex [].
Definition ex_annotators : list annotator :=
  [ASimple ex_config 3 [mkTann (u "title") (VOne (u "a title")) []];
   AReplaceTags [(u "title", Some (u "head"))];
   AMergeGroup (fun v => Some v) LMain;
   AExpandPrevious [u "head"]].
(** four annotators in a row *)
Example C11_ex : exists d', annotate_all ex_libs ex_annotators
    [[word "some" None; word "A" None; word "title" None]; [word "B" None]; [word "c" (Some (u "b-other"))]] = Ok d' /\
  map (map tag) d' = [[Some (u "b-head"); Some (u "i-head"); Some (u "i-head")]; [Some (u "i-head")]; [Some (u "b-other")]] /\
  forallb (fun a => negb (removes a)) ex_annotators = true.
Proof. eexists. split; [vm_compute; reflexivity|]. split; vm_compute; reflexivity. Qed.
Example C11_saved_ex : exists root', ex_tei <> root' /\
  annotated_tree ex_libs ascii_upper ascii_lower any_node [(u "head", u "docTitle/titlePart")] true [u "text"; u "front"]
    (mkAnnOptions [] true [u "title"] false []) ex_annotators ex_tei = Ok root' /\
  named ex_tei = true /\ length (find_all [u "text"; u "front"] ex_tei) = 1 /\
  content root' = content ex_tei /\ content ex_tei = u "xA titleB yZw".
Proof. eexists. split; [|split; [vm_compute; reflexivity|]]; [discriminate|]. repeat split; vm_compute; reflexivity. Qed.
(** with removal: one line loses the untagged word *)
Example C11_removed_ex : exists d', annotate_all ex_libs [AReplaceTags [(u "other", Some (u "x"))]; ARemoveUntagged; AMergeGroup (fun v => Some v) LMain]
    [[word "some" None; word "c" (Some (u "b-other"))]] = Ok d' /\ map (map tag) d' = [[Some (u "b-x")]] /\ map (map tx) d' = [[u "c"]].
Proof. eexists. split; [vm_compute; reflexivity|]. split; vm_compute; reflexivity. Qed.
(** two lines: the text is in the result twice *)
Theorem C11_removed_refuted : exists d d', annotate_all ex_libs [ARemoveUntagged] d = Ok d' /\ ~ left_out same_text (concat d) (concat d').
Proof.
  exists [[word "a" (Some (u "b-x"))]; [word "b" (Some (u "b-x"))]]. eexists. split; [vm_compute; reflexivity|]. intros H.
  assert (L : forall (A : Type) (R : A -> A -> Prop) l l', left_out R l l' -> length l' <= length l) by (induction 1; cbn; lia).
  apply L in H. cbn in H. lia.
Qed.

Print Assumptions C11_one.
Print Assumptions C11_layout.
Print Assumptions C11_removed_partial.
Print Assumptions C11_one_line.
Print Assumptions C11_saved.
Print Assumptions C11_removed_refuted.
