(** Lemmas about document operations. *)
From Verif Require Import Base ModelTags ProofTags ModelXml ModelTei SpecTeiRead ModelTeiDoc SpecTeiWrite SpecTeiDoc.

Lemma update_nth_length {A} f (l : list A) n : length (update_nth n f l) = length l.
Proof. revert n. induction l; intros [|n]; cbn; auto. Qed.
Lemma update_nth_same {A} f (l : list A) n :
  nth_error (update_nth n f l) n = option_map f (nth_error l n).
Proof. revert n. induction l; intros [|n]; cbn; auto. Qed.
Lemma update_nth_other {A} f (l : list A) n m : n <> m ->
  nth_error (update_nth n f l) m = nth_error l m.
Proof.
  revert n m. induction l; intros [|n] [|m] H; cbn; auto; try congruence.
Qed.
Lemma update_nth_Forall2 {A} (R : A -> A -> Prop) f (l : list A) n :
  (forall x, R x x) -> (forall x, nth_error l n = Some x -> R x (f x)) -> Forall2 R l (update_nth n f l).
Proof.
  intros Hr. revert n. induction l as [|a l IH]; intros [|n] H; cbn; constructor; auto.
  - clear -Hr. induction l; constructor; auto.
Qed.

Lemma nth_error_ext' {A} (l l' : list A) :
  (forall n, nth_error l n = nth_error l' n) -> l = l'.
Proof.
  revert l'. induction l as [|a l IH]; intros [|b l'] H.
  - reflexivity.
  - specialize (H 0). discriminate.
  - specialize (H 0). discriminate.
  - pose proof (H 0) as H0. cbn in H0. injection H0 as ->. f_equal. apply IH.
    intros n. exact (H (S n)).
Qed.

(** ** remove_all_untagged *)
Section Remove.
Variable sp : N -> bool.

Definition last_ok (before : list tok) : bool :=
  match find (is_word sp) (rev before) with Some w => tagged w | None => true end.

Lemma remove_fold l : forall cur before,
  fold_left (remove_step sp) l (cur, last_ok before) =
  (cur ++ map snd (filter (fun bt => survives sp (fst bt) (snd bt)) (with_before before l)),
   last_ok (before ++ l)).
Proof.
  induction l as [|t l IH]; intros cur before; cbn [fold_left with_before filter map].
  - now rewrite !app_nil_r.
  - cbn [remove_step fst snd]. unfold survives at 1. fold (last_ok before).
    replace (before ++ t :: l) with ((before ++ [t]) ++ l) by now rewrite <- app_assoc.
    assert (E : last_ok (before ++ [t]) = if is_word sp t then tagged t else last_ok before).
    { unfold last_ok. rewrite rev_app_distr. cbn [rev app find]. destruct (is_word sp t); reflexivity. }
    unfold is_word in *. destruct (is_space sp t); cbn [negb] in *.
    + rewrite <- E, IH. rewrite E. destruct (last_ok before); cbn [map snd]; [|reflexivity].
      now rewrite <- app_assoc.
    + fold (tagged t). destruct (tagged t); rewrite <- E, IH; cbn [map snd]; [|reflexivity].
      now rewrite <- app_assoc.
Qed.

Lemma with_before_app b l1 l2 : with_before b (l1 ++ l2) = with_before b l1 ++ with_before (b ++ l1) l2.
Proof.
  revert b. induction l1 as [|t l1 IH]; intros b; cbn [app with_before].
  - now rewrite app_nil_r.
  - rewrite IH, <- app_assoc. reflexivity.
Qed.
Lemma survivors_app l1 l2 : survivors sp (l1 ++ l2) =
  survivors sp l1 ++ map snd (filter (fun bt => survives sp (fst bt) (snd bt)) (with_before l1 l2)).
Proof. unfold survivors. now rewrite with_before_app, filter_app, map_app. Qed.

(** number of non-empty stages: the lines from the first one that contributes a
    surviving token on *)
Fixpoint stages (before : list tok) (d : doc) : nat :=
  match d with
  | [] => 0
  | l :: d' => (if nonempty (survivors sp (before ++ l)) then 1 else 0) + stages (before ++ l) d'
  end.
Lemma remove_doc_fold d : forall before n,
  fold_left (remove_line sp) d (survivors sp before, last_ok before, n) =
  (survivors sp (before ++ concat d), last_ok (before ++ concat d), n + stages before d).
Proof.
  induction d as [|l d IH]; intros before n; cbn [fold_left concat stages].
  - now rewrite app_nil_r, Nat.add_0_r.
  - unfold remove_line at 2. rewrite remove_fold, <- survivors_app.
    replace (match survivors sp (before ++ l) with [] => n | _ => S n end)
      with (n + if nonempty (survivors sp (before ++ l)) then 1 else 0)
      by (destruct (survivors sp (before ++ l)); cbn; lia).
    rewrite IH, <- app_assoc, Nat.add_assoc. reflexivity.
Qed.
Lemma remove_all_untagged_eq d :
  remove_all_untagged sp d = repeat (survivors sp (concat d)) (stages [] d).
Proof.
  unfold remove_all_untagged. change (@nil tok) with (survivors sp []).
  change true with (last_ok []). rewrite remove_doc_fold. reflexivity.
Qed.

Lemma survivors_words l :
  filter (is_word sp) (survivors sp l) = filter (fun t => is_word sp t && tagged t) l.
Proof.
  unfold survivors. generalize (@nil tok) as b.
  induction l as [|t l IH]; intros b; cbn [with_before filter]; [reflexivity|].
  cbn [fst snd]. unfold survives at 1. destruct (is_word sp t) eqn:E; cbn [andb].
  - destruct (tagged t); cbn [map filter snd]; [rewrite E|]; now rewrite IH.
  - match goal with |- context [if ?x then _ else _] => destruct x end; cbn [map filter snd];
      [rewrite E|]; apply IH.
Qed.
Lemma stages_one l : stages [] [l] = if nonempty (survivors sp l) then 1 else 0.
Proof. cbn [stages app]. now rewrite Nat.add_0_r. Qed.
Lemma stages_pos : forall d before, survivors sp (before ++ concat d) <> survivors sp before \/ survivors sp before <> [] ->
  d <> [] -> 0 < stages before d.
Proof.
  induction d as [|l d IH]; intros before H Hd; [congruence|]. cbn [stages concat] in *.
  destruct (survivors sp (before ++ l)) eqn:E; cbn [nonempty]; [|lia].
  assert (Hb : survivors sp before = []).
  { rewrite survivors_app in E. now apply app_eq_nil in E. }
  destruct H as [H|H]; [|congruence].
  destruct d as [|l' d]; [cbn in H; rewrite app_nil_r in H; congruence|].
  assert (0 < stages (before ++ l) (l' :: d)); [|lia].
  apply IH; [|discriminate]. left. rewrite <- app_assoc. congruence.
Qed.
End Remove.

(** ** set_tag *)
Section SetTag.
Variable sp : N -> bool.

Lemma shown_or lv t : tag_or_preserved lv t = shown lv t.
Proof. destruct lv; reflexivity. Qed.

(** what clearing does to one token *)
Definition clear_tok (lv : level) (p : ostr) (x : tok) : tok :=
  if truthy p && ostreq (value (remembered lv x)) p then set_preserved_tag lv None x else x.
Lemma clear_same_at lv j l t : nth_error l j = Some t ->
  clear_same_preserved lv j l = map (clear_tok lv (value (remembered lv t))) l.
Proof.
  intros H. unfold clear_same_preserved. rewrite H. unfold clear_tok.
  change (strip_tag_prefix (get_preserved_tag lv t)) with (value (get_preserved_tag lv t)).
  replace (get_preserved_tag lv) with (remembered lv) by (destruct lv; reflexivity).
  destruct (truthy (value (remembered lv t))); cbn [andb]; [reflexivity|].
  now rewrite map_id.
Qed.

(** what [set_tag] on token [t] (new tag [v]) does to another token of the line *)
Definition changes lv (t : tok) (v : ostr) : bool :=
  negb (is_space sp t) && negb (ostreq (value v) (value (shown lv t))).
Definition beside (lv : level) (t : tok) (v : ostr) (x : tok) : tok :=
  if changes lv t v then
    let x1 := clear_tok lv (value (remembered lv t)) x in
    match lv with LMain => clear_tok LSub (value (remembered LSub t)) x1 | LSub => x1 end
  else x.
Lemma set_tag_line_eq lv j v l t : nth_error l j = Some t ->
  set_tag_line sp lv j v l = map (beside lv t v) (update_nth j (set_tag_only lv v) l).
Proof.
  intros H. unfold set_tag_line. rewrite H. unfold beside, changes.
  rewrite shown_or. change strip_tag_prefix with value.
  destruct (is_space sp t); cbn [negb andb]; [now rewrite map_id|].
  destruct (ostreq (value v) (value (shown lv t))) eqn:E; cbn [negb]; [now rewrite map_id|].
  assert (H1 : nth_error (update_nth j (set_tag_only lv v) l) j = Some (set_tag_only lv v t))
    by (rewrite update_nth_same, H; reflexivity).
  rewrite (clear_same_at lv j _ _ H1).
  replace (remembered lv (set_tag_only lv v t)) with (remembered lv t) by (destruct lv; reflexivity).
  destruct lv; [|reflexivity].
  set (l2 := map _ _).
  assert (H2 : nth_error l2 j = Some (clear_tok LMain (value (remembered LMain t)) (set_tag_only LMain v t)))
    by (unfold l2; rewrite nth_error_map, H1; reflexivity).
  rewrite (clear_same_at LSub j _ _ H2).
  replace (remembered LSub (clear_tok LMain (value (remembered LMain t)) (set_tag_only LMain v t)))
    with (remembered LSub t)
    by (unfold clear_tok; destruct (_ && _); reflexivity).
  unfold l2. now rewrite map_map.
Qed.
Lemma set_tag_line_at lv j v l t k x : nth_error l j = Some t -> nth_error l k = Some x ->
  nth_error (set_tag_line sp lv j v l) k =
    Some (beside lv t v (if Nat.eqb k j then set_tag_only lv v x else x)).
Proof.
  intros Hj Hk. rewrite (set_tag_line_eq lv j v l t Hj), nth_error_map.
  destruct (Nat.eqb_spec k j) as [->|Hne].
  - rewrite update_nth_same, Hk. reflexivity.
  - rewrite update_nth_other, Hk by congruence. reflexivity.
Qed.
Lemma set_tag_line_out lv j v l : nth_error l j = None -> set_tag_line sp lv j v l = l.
Proof. intros H. unfold set_tag_line. now rewrite H. Qed.
Lemma set_tag_line_length lv j v l : length (set_tag_line sp lv j v l) = length l.
Proof.
  destruct (nth_error l j) as [t|] eqn:E.
  - rewrite (set_tag_line_eq lv j v l t E), map_length. apply update_nth_length.
  - now rewrite set_tag_line_out.
Qed.

Lemma clear_tok_text lv p x : same_text x (clear_tok lv p x).
Proof. unfold clear_tok. destruct (_ && _); destruct lv; split; reflexivity. Qed.
Lemma set_tag_only_text lv v x : same_text x (set_tag_only lv v x).
Proof. destruct lv; split; reflexivity. Qed.
Lemma same_text_trans x y z : same_text x y -> same_text y z -> same_text x z.
Proof. intros [A B] [C D]. split; congruence. Qed.
Lemma same_text_refl x : same_text x x.
Proof. split; reflexivity. Qed.
Lemma beside_text lv t v x : same_text x (beside lv t v x).
Proof.
  unfold beside. destruct (changes lv t v); [|apply same_text_refl]. destruct lv.
  - eapply same_text_trans; apply clear_tok_text.
  - apply clear_tok_text.
Qed.
Lemma Forall2_map_r {A B} (R : A -> B -> Prop) (f : A -> B) l :
  (forall x, R x (f x)) -> Forall2 R l (map f l).
Proof. intros H. induction l; constructor; auto. Qed.
Lemma Forall2_trans' {A} (R : A -> A -> Prop) : (forall x y z, R x y -> R y z -> R x z) ->
  forall a b c, Forall2 R a b -> Forall2 R b c -> Forall2 R a c.
Proof.
  intros Ht a b c H. revert c. induction H; intros c Hc; inversion Hc; subst; constructor; eauto.
Qed.
Lemma Forall2_refl' {A} (R : A -> A -> Prop) : (forall x, R x x) -> forall l, Forall2 R l l.
Proof. intros H l. induction l; constructor; auto. Qed.
Lemma set_tag_line_text lv j v l : Forall2 same_text l (set_tag_line sp lv j v l).
Proof.
  destruct (nth_error l j) as [t|] eqn:E.
  - rewrite (set_tag_line_eq lv j v l t E).
    eapply Forall2_trans'; [apply same_text_trans| |apply Forall2_map_r; apply beside_text].
    apply update_nth_Forall2; [apply same_text_refl|intros; apply set_tag_only_text].
  - rewrite set_tag_line_out by assumption. apply Forall2_refl', same_text_refl.
Qed.
Lemma same_layout_refl d : same_layout d d.
Proof. apply Forall2_refl', Forall2_refl', same_text_refl. Qed.
Lemma same_layout_trans a b c : same_layout a b -> same_layout b c -> same_layout a c.
Proof. apply Forall2_trans', Forall2_trans', same_text_trans. Qed.
Lemma set_tag_layout lv ij v d : same_layout d (set_tag sp lv ij v d).
Proof.
  apply update_nth_Forall2.
  - apply Forall2_refl', same_text_refl.
  - intros l _. apply set_tag_line_text.
Qed.
Lemma run_layout ops : forall d, same_layout d (run sp ops d).
Proof.
  induction ops as [|o ops IH]; intros d; [apply same_layout_refl|].
  eapply same_layout_trans; [|apply IH]. apply set_tag_layout.
Qed.

(** given tags *)
Lemma clear_tok_given lv lv' p x : given lv' (clear_tok lv p x) = given lv' x.
Proof. unfold clear_tok. destruct (_ && _); destruct lv, lv'; reflexivity. Qed.
Lemma beside_given lv lv' t v x : given lv' (beside lv t v x) = given lv' x.
Proof.
  unfold beside. destruct (changes lv t v); [|reflexivity].
  destruct lv; now rewrite ?clear_tok_given.
Qed.
Definition lv_eqb (a b : level) : bool := match a, b with LMain, LMain | LSub, LSub => true | _, _ => false end.
Lemma lv_eqb_true a b : lv_eqb a b = true <-> a = b.
Proof. destruct a, b; cbn; split; congruence. Qed.
Lemma given_set lv lv' v x :
  given lv' (set_tag_only lv v x) = if lv_eqb lv lv' then v else given lv' x.
Proof. destruct lv, lv'; reflexivity. Qed.
Lemma tok_at_set lv ij v d kl x : tok_at d kl = Some x ->
  exists x', tok_at (set_tag sp lv ij v d) kl = Some x' /\ same_text x x' /\
    (forall lv', given lv' x' =
       if lv_eqb lv lv' && (Nat.eqb (fst ij) (fst kl) && Nat.eqb (snd ij) (snd kl))
       then v else given lv' x) /\
    (forall lv', remembered lv' x' = remembered lv' x \/
       exists y, tok_at d ij = Some y /\ fst ij = fst kl /\ changes lv y v = true /\
         (lv' = lv \/ lv = LMain) /\
         remembered lv' x' = None /\ value (remembered lv' y) = value (remembered lv' x) /\
         truthy (value (remembered lv' y)) = true).
Proof.
  intros Hx. unfold tok_at, set_tag in *. cbn [fst snd].
  destruct ij as [i j]; destruct kl as [k m]. cbn [fst snd] in *.
  destruct (nth_error d k) as [l|] eqn:El; [|discriminate].
  destruct (Nat.eqb_spec i k) as [->|Hik].
  2:{ rewrite update_nth_other, El by assumption. exists x.
      split; [exact Hx|]. split; [apply same_text_refl|]. split; [|auto].
      intros lv'. cbn [andb]. now rewrite andb_false_r. }
  rewrite update_nth_same, El. cbn [option_map andb].
  destruct (nth_error l j) as [t|] eqn:Ej.
  2:{ rewrite set_tag_line_out by assumption. exists x.
      split; [exact Hx|]. split; [apply same_text_refl|]. split; [|auto].
      intros lv'. destruct (Nat.eqb_spec j m) as [->|_]; [congruence|]. now rewrite andb_false_r. }
  rewrite (set_tag_line_at lv j v l t m x Ej Hx). eexists. split; [reflexivity|].
  rewrite (Nat.eqb_sym m j). split; [|split].
  - eapply same_text_trans; [|apply beside_text]. destruct (Nat.eqb j m).
    + apply set_tag_only_text.
    + apply same_text_refl.
  - intros lv'. rewrite beside_given. destruct (Nat.eqb j m); [rewrite andb_true_r|rewrite andb_false_r; reflexivity].
    apply given_set.
  - intros lv'.
    assert (Hr : forall lv'', remembered lv'' (if Nat.eqb j m then set_tag_only lv v x else x) = remembered lv'' x)
      by (intros lv''; destruct (Nat.eqb j m); destruct lv, lv''; reflexivity).
    unfold beside. destruct (changes lv t v) eqn:Ec; [|left; apply Hr].
    set (x1 := if Nat.eqb j m then _ else x) in *. clearbody x1.
    assert (Hc : forall l0 p y, remembered lv' (clear_tok l0 p y) = remembered lv' y \/
      l0 = lv' /\ remembered lv' (clear_tok l0 p y) = None /\ value (remembered lv' y) = p /\ truthy p = true).
    { intros l0 p y. unfold clear_tok. destruct (truthy p && ostreq (value (remembered l0 y)) p) eqn:E; [|auto].
      apply andb_true_iff in E as [E1 E2]. apply ostreq_true in E2.
      destruct l0, lv'; cbn in *; auto. }
    destruct lv.
    + destruct (Hc LMain (value (remembered LMain t)) x1) as [A|(A1 & A2 & A3 & A4)].
      * destruct (Hc LSub (value (remembered LSub t)) (clear_tok LMain (value (remembered LMain t)) x1))
          as [B|(B1 & B2 & B3 & B4)].
        -- left. rewrite B, A. apply Hr.
        -- right. exists t. subst lv'. rewrite B2. rewrite A, Hr in B3. rewrite B3.
           repeat split; auto.
      * right. exists t. subst lv'.
        assert (B : remembered LMain (clear_tok LSub (value (remembered LSub t))
                   (clear_tok LMain (value (remembered LMain t)) x1)) = None).
        { rewrite <- A2. unfold clear_tok at 1. destruct (_ && _); reflexivity. }
        rewrite B. rewrite Hr in A3. rewrite A3. repeat split; auto.
    + destruct (Hc LSub (value (remembered LSub t)) x1) as [A|(A1 & A2 & A3 & A4)].
      * left. rewrite A. apply Hr.
      * right. exists t. subst lv'. rewrite A2. rewrite Hr in A3. rewrite A3. repeat split; auto.
Qed.
End SetTag.

(** ** the whole tree *)
Lemma replace_first_none f : forall path e, find_all path e = [] -> replace_first f path e = None.
Proof.
  induction path as [|n path IH]; intros k Ek; [discriminate|].
  destruct k as [m a t ks tl|tl]; [|reflexivity]. cbn [find_all children] in Ek. cbn [replace_first].
  enough (E : replace_in (fun c => if has_name n c then replace_first f path c else None) ks = None)
    by (rewrite E; reflexivity).
  induction ks as [|k ks IHk]; [reflexivity|]. cbn [filter] in Ek. cbn [replace_in].
  destruct (has_name n k).
  - cbn [flat_map] in Ek. apply app_eq_nil in Ek as [E1 E2].
    rewrite (IH k E1), (IHk E2). reflexivity.
  - rewrite (IHk Ek). reflexivity.
Qed.
Lemma find_all_plug_first : forall path e c cs, find_all path e = c :: cs ->
  exists ctx, e = plug ctx c /\ length ctx = length path /\
    (forall f, replace_first f path e =
       Some (do c' <- f c ;; Ok (plug ctx c'))) /\
    (forall n a t ks tl, elem_name c = n -> path <> [] ->
       find_all path (plug ctx (Elem n a t ks tl)) = Elem n a t ks tl :: cs).
Proof.
  induction path as [|n path IH]; intros e c cs H.
  - injection H as <- <-. exists []. split; [reflexivity|]. split; [reflexivity|]. split.
    + intros f. cbn [replace_first plug]. destruct (f e); reflexivity.
    + congruence.
  - destruct e as [m a text ks tl|tl]; [|discriminate]. cbn [find_all children] in H.
    assert (Hgo : exists left k right ctx, ks = left ++ k :: right /\ k = plug ctx c /\
        length ctx = length path /\
        (forall f, replace_in (fun c => if has_name n c then replace_first f path c else None) ks
           = Some (do c' <- f c ;; Ok (left ++ plug ctx c' :: right))) /\
        (forall n0 a t ks' tl, elem_name c = n0 ->
           flat_map (find_all path) (filter (has_name n) (left ++ plug ctx (Elem n0 a t ks' tl) :: right))
           = Elem n0 a t ks' tl :: cs)).
    { revert H. induction ks as [|k ks IHk]; intros H; [discriminate|]. cbn [filter] in H.
      destruct (has_name n k && nonempty (find_all path k)) eqn:E.
      - apply andb_true_iff in E as [En E]. rewrite En in H. cbn [flat_map] in H.
        destruct (find_all path k) as [|c0 r0] eqn:Ek; [discriminate|].
        injection H as -> H. destruct (IH k c r0 Ek) as (ctx & E1 & E2 & E3 & E4).
        exists [], k, ks, ctx. split; [reflexivity|]. split; [exact E1|]. split; [exact E2|]. split.
        + intros f. cbn [replace_in]. rewrite En, E3. destruct (f c); reflexivity.
        + intros n0 a0 t ks' tl0 Hn. cbn [app filter].
          assert (Hh : has_name n (plug ctx (Elem n0 a0 t ks' tl0)) = true).
          { rewrite E1 in En. destruct ctx as [|x ctx]; [|exact En]. cbn [plug] in *.
            destruct c as [m0 ? ? ? ?|?]; [|discriminate]. cbn in Hn. subst n0. exact En. }
          rewrite Hh. cbn [flat_map]. destruct path as [|n' path].
          * destruct ctx; [|discriminate]. cbn [find_all plug app].
            cbn [find_all] in Ek. injection Ek as _ <-. cbn in H. now rewrite H.
          * rewrite E4 by (assumption || discriminate). cbn [app]. now rewrite H.
      - assert (Hf : forall f, (if has_name n k then replace_first f path k else None) = None).
        { intros f. destruct (has_name n k); [|reflexivity]. apply replace_first_none.
          destruct (find_all path k); [reflexivity|discriminate]. }
        assert (He : forall r, flat_map (find_all path) (filter (has_name n) (k :: r))
          = flat_map (find_all path) (filter (has_name n) r)).
        { intros r. cbn [filter]. destruct (has_name n k); [|reflexivity]. cbn [flat_map].
          destruct (find_all path k); [reflexivity|discriminate]. }
        change (if has_name n k then k :: filter (has_name n) ks else filter (has_name n) ks)
          with (filter (has_name n) (k :: ks)) in H.
        rewrite He in H.
        destruct (IHk H) as (left & k0 & right & ctx & -> & E2 & E3 & E4 & E5).
        exists (k :: left), k0, right, ctx. split; [reflexivity|]. split; [exact E2|].
        split; [exact E3|]. split.
        + intros f. cbn [replace_in]. rewrite Hf, E4. destruct (f c); reflexivity.
        + intros n0 a0 t ks' tl0 Hn. cbn [app]. rewrite He. apply E5; assumption. }
    destruct Hgo as (left & k & right & ctx & -> & E2 & E3 & E4 & E5).
    exists (mkCtx m a text left right tl :: ctx). cbn [plug x_name x_attrib x_text x_left x_right x_tail].
    split; [now rewrite E2|]. split; [cbn; now rewrite E3|]. split.
    + intros f. cbn [replace_first]. rewrite E4. destruct (f c); reflexivity.
    + intros n0 a0 t0 ks0 tl0 Hn _. cbn [find_all children]. apply E5. exact Hn.
Qed.

Lemma full_text_plug ctx : exists pre post, forall e, full_text (plug ctx e) = pre ++ full_text e ++ post.
Proof.
  induction ctx as [|f ctx (pre & post & IH)].
  - exists [], []. intros e. now rewrite app_nil_r.
  - exists (x_text f ++ flat_map (fun c => content c ++ xtail c) (x_left f) ++ pre),
      (post ++ flat_map (fun c => content c ++ xtail c) (x_right f) ++ x_tail f).
    intros e. unfold full_text in *. cbn [plug content xtail]. rewrite flat_map_app. cbn [flat_map].
    rewrite IH, !app_assoc. reflexivity.
Qed.

Lemma find_all_named path : forall e, named e = true -> forallb named (find_all path e) = true.
Proof.
  induction path as [|n path IH]; intros e H; cbn [find_all].
  - cbn. now rewrite H.
  - destruct e as [m a t ks tl|tl]; [|reflexivity]. cbn [children].
    cbn [named] in H. apply andb_true_iff in H as [_ H].
    induction ks as [|k ks IHk]; [reflexivity|]. cbn [forallb] in H. apply andb_true_iff in H as [H1 H2].
    cbn [filter]. destruct (has_name n k); [|auto]. cbn [flat_map]. rewrite forallb_app, IH, IHk by assumption.
    reflexivity.
Qed.
Lemma find_all_elem path : forall e c, path <> [] -> In c (find_all path e) -> exists n a t ks tl, c = Elem n a t ks tl.
Proof.
  induction path as [|n path IH]; intros e c Hne H; [congruence|]. cbn [find_all] in H.
  apply in_flat_map in H as (k & Hk & H). apply filter_In in Hk as [_ Hk].
  destruct path as [|n' path].
  - cbn in H. destruct H as [<-|[]]. destruct k; [eauto 6|discriminate].
  - apply (IH k); [discriminate|exact H].
Qed.

Lemma same_layout_text d d' : same_layout d d' ->
  concat (map tx (concat d)) = concat (map tx (concat d')).
Proof.
  induction 1 as [|l l' d d' Hl Hd IH]; [reflexivity|]. cbn [concat]. rewrite !map_app, !concat_app, IH.
  f_equal. clear -Hl. induction Hl as [|x y l l' [E _] Hl IH]; [reflexivity|]. cbn. now rewrite E, IH.
Qed.
