(** C07, continued: which words begin an entity after saving and loading; documents
    whose mapping has an entry for untagged text. *)
From Verif Require Import Base ModelTags ModelTokenize ModelXml ModelTei ProofXml ProofTags
  ProofTokenize SpecTeiRead ProofTeiRead ProofTeiLoad PropTokenize PropTeiRead SpecTeiWrite ProofTeiWrite ProofTeiSave
  PropTeiWrite ProofTeiRoundtrip ProofTeiPrefix PropTeiRoundtrip.
Open Scope nat_scope.

(* ---------------------------------------------------------------- *)
(** ** Specification *)

(** An empty tag counts as no tag. *)
Definition norm (v : ostr) : ostr := match v with Some [] => None | _ => v end.

(** The (non blank) characters of a line, each with the value of its tag and whether
    it is the first character of a token with a begin tag. *)
Definition flags (sp : N -> bool) (f : tok -> ostr) (l : line) : list (N * ostr * bool) :=
  flat_map (fun t =>
    match tx t with
    | [] => []
    | c :: s => filter (fun x => negb (sp (fst (fst x))))
        ((c, norm (value (f t)), begin (f t)) :: map (fun c => (c, norm (value (f t)), false)) s)
    end) l.

(** the element path for a tag value, also for untagged text *)
Definition tag_path (m : list (str * str)) (v : ostr) : list str :=
  match v with
  | Some ((_ :: _) as v) => path_of m v
  | _ => match dict_get [] m with Some ((_ :: _) as p) => split_path p | _ => [] end
  end.
(** the tag value an element path is loaded as *)
Definition loaded_value (m : list (str * str)) (p : list str) : ostr :=
  match p with [] => None | _ => norm (Some (field_of m (join_path p))) end.

Section Spec.
Variable sp : N -> bool.
Variable node_ok : str -> list (str * str) -> bool.
Variable m : list (str * str).

(** The element of a word's main tag is found again: the word lies directly in the
    container, or in an element that is an entity (its path is mapped, or the word
    lies directly in it) while no element around it is one. *)
Definition found_again (ls : list line) (t : tok) : Prop :=
  let p := tag_path m (value (shown_tag t)) in
  (p = [] /\ required_path m t = []) \/
  (p <> [] /\ canonical node_ok (required_path m t) /\
   (In (join_path p) (map snd m) \/ required_path m t = p) /\
   forall q, prefix q p -> q <> [] -> q <> p ->
     ~ In (join_path q) (map snd m) /\
     forall t', In t' (concat ls) -> is_space sp t' = false -> required_path m t' <> q).

(** The word [t] after the word [prev] (with the begin tags [rs] on the spaces between)
    lies in another element than [prev]. *)
Definition starts (prev : option tok) (rs : list str) (t : tok) : bool :=
  let v := value (shown_tag t) in
  begin (shown_tag t)
  || omem v rs
  || match prev with
     | None => true
     | Some t0 => negb (path_eqb (tag_path m (value (shown_tag t0))) (tag_path m v))
     end
  || (begin (shown_sub_tag t)
      && (let q := tag_path m (value (shown_sub_tag t)) in
          negb (path_starts_with (tag_path m v) q) || path_eqb q (tag_path m v))).

(** what is loaded: characters (with value and begin) and line breaks *)
Definition chars (s : str) (v : ostr) (b : bool) : list (option (N * ostr * bool)) :=
  match s with
  | [] => []
  | c :: s' => map Some (filter (fun x => negb (sp (fst (fst x)))) ((c, v, b) :: map (fun c => (c, v, false)) s'))
  end.
Fixpoint reloaded (prev : option tok) (rs : list str) (l : list (option tok)) : list (option (N * ostr * bool)) :=
  match l with
  | [] => []
  | None :: l' => None :: reloaded prev rs l'
  | Some t :: l' =>
      if is_space sp t then reloaded prev (match begins t with Some v => v :: rs | None => rs end) l'
      else
        let v := loaded_value m (tag_path m (value (shown_tag t))) in
        chars (tx t) v (truthy v && starts prev rs t) ++ reloaded (Some t) [] l'
  end.
End Spec.

(* ---------------------------------------------------------------- *)
(** ** Helper lemmas *)
Lemma main_tag_path m t : main_path m t = tag_path m (value (shown_tag t)).
Proof. reflexivity. Qed.
Lemma norm_truthy v : truthy (norm v) = truthy v.
Proof. destruct v as [[|]|]; reflexivity. Qed.

Definition lift3 (f : str -> str) (o : mark) : mark :=
  match o with
  | Some (c, v, b) => Some (c, norm (option_map f v), truthy (option_map f v) && b)
  | None => None
  end.
Definition tok_marks (i : item) : list mark :=
  match i with ITok s t => text_marks s (norm (value t)) (begin t) | ILb => [None] end.
Lemma lift3_text f s v b : map (lift3 f) (text_marks s v b) = text_marks s (norm (option_map f v)) (truthy (option_map f v) && b).
Proof.
  destruct s as [|c s]; [reflexivity|]. cbn [text_marks map lift3]. f_equal. rewrite map_map. apply map_ext.
  intros x. cbn [lift3]. now rewrite andb_false_r.
Qed.
Lemma rename_mark f i : prefixed i -> tok_marks (rename f i) = map (lift3 f) (item_marks i).
Proof.
  destruct i as [s t|]; [|reflexivity]. cbn [item_marks]. rewrite lift3_text.
  destruct t as [t|]; [|reflexivity]. intros [v H]. cbn [rename tok_marks option_map].
  destruct H as [-> | ->].
  - change (skipn 2 (u "b-" ++ v)) with v. destruct (f v); reflexivity.
  - change (skipn 2 (u "i-" ++ v)) with v. destruct (f v); reflexivity.
Qed.
Lemma rename_marks f l : Forall prefixed l ->
  flat_map tok_marks (map (rename f) l) = map (lift3 f) (flat_map item_marks l).
Proof.
  induction 1 as [|i l Hi HF IH]; [reflexivity|]. cbn [map flat_map]. rewrite map_app, IH. f_equal. now apply rename_mark.
Qed.
Lemma filter_lift3 sp f l : filter (inked3 sp) (map (lift3 f) l) = map (lift3 f) (filter (inked3 sp) l).
Proof.
  induction l as [|[[[c v] b]|] l IH]; cbn; [reflexivity| |]; rewrite IH; [|reflexivity].
  destruct (negb (sp c)); reflexivity.
Qed.
Lemma chars_marks sp s v b : filter (inked3 sp) (text_marks s v b) = chars sp s v b.
Proof.
  destruct s as [|c s]; [reflexivity|]. cbn [text_marks chars filter inked3 fst].
  assert (H : filter (inked3 sp) (map (fun c0 => Some (c0, v, false)) s)
    = map Some (filter (fun x => negb (sp (fst (fst x)))) (map (fun c0 => (c0, v, false)) s))).
  { induction s as [|d s IH]; [reflexivity|]. cbn [map filter inked3 fst]. destruct (negb (sp d)); cbn [map]; now rewrite IH. }
  rewrite H. destruct (negb (sp c)); reflexivity.
Qed.
Lemma flags_chars sp f l : map Some (flags sp f l) = flat_map (fun t => chars sp (tx t) (norm (value (f t))) (begin (f t))) l.
Proof.
  induction l as [|t l IH]; [reflexivity|]. cbn [flags flat_map]. rewrite map_app. fold (flags sp f l). rewrite IH. f_equal.
  destruct (tx t); reflexivity.
Qed.
Lemma line_marks sp f (l : line) :
  filter (inked3 sp) (flat_map tok_marks (map (fun t => ITok (tx t) (f t)) l)) = map Some (flags sp f l).
Proof.
  rewrite flags_chars. induction l as [|t l IH]; [reflexivity|]. cbn [map flat_map]. rewrite filter_app, IH. f_equal.
  cbn [tok_marks]. apply chars_marks.
Qed.
Lemma lines_marks sp f ls :
  filter (inked3 sp) (flat_map tok_marks (items_of_lines f ls)) = sep (map (flags sp f) ls).
Proof.
  destruct ls as [|l ls]; [reflexivity|]. cbn [map sep]. revert l.
  induction ls as [|l' ls IH]; intros l.
  - cbn [items_of_lines map flat_map]. rewrite app_nil_r. apply line_marks.
  - change (items_of_lines f (l :: l' :: ls)) with
      (map (fun t => ITok (tx t) (f t)) l ++ ILb :: items_of_lines f (l' :: ls)).
    rewrite flat_map_app, filter_app, line_marks. f_equal. cbn [flat_map tok_marks app filter inked3 map]. f_equal.
    apply IH.
Qed.

(** the same as [reloaded], from what was written *)
Fixpoint wrm (sp : N -> bool) (m : list (str * str)) (prev : option tok) (sk : list (option tok)) (W : list (list str * tok)) : list mark :=
  match sk with
  | [] => []
  | None :: sk' => None :: wrm sp m prev sk' W
  | Some t :: sk' =>
      match W with
      | [] => []
      | (rs, _) :: W' =>
          let v := loaded_value m (tag_path m (value (shown_tag t))) in
          chars sp (tx t) v (truthy v && starts m prev rs t) ++ wrm sp m (Some t) sk' W'
      end
  end.
Lemma wrm_reloaded sp m l : forall prev rs,
  wrm sp m prev (skeleton sp l) (words_go sp rs (flat_map (fun o => match o with Some t => [t] | None => [] end) l))
  = reloaded sp m prev rs l.
Proof.
  induction l as [|[t|] l IH]; intros prev rs; [reflexivity| |].
  - cbn [skeleton filter flat_map app words_go reloaded]. fold (skeleton sp l). destruct (is_space sp t); cbn [negb].
    + apply IH.
    + cbn [wrm]. f_equal. apply IH.
  - cbn [skeleton filter flat_map app wrm reloaded]. fold (skeleton sp l). f_equal. apply IH.
Qed.
Lemma lines_items_toks ls : flat_map (fun o : option tok => match o with Some t => [t] | None => [] end) (lines_items ls) = concat ls.
Proof.
  assert (G : forall l : list tok, flat_map (fun o : option tok => match o with Some t => [t] | None => [] end) (map Some l) = l).
  { induction l as [|t l IH]; [reflexivity|]. cbn. now rewrite IH. }
  destruct ls as [|l ls]; [reflexivity|]. cbn [lines_items concat]. rewrite flat_map_app, G. f_equal.
  induction ls as [|l' ls IH]; [reflexivity|]. cbn [flat_map concat]. rewrite flat_map_app. cbn [flat_map app]. now rewrite G, IH.
Qed.

Lemma prefix_antisym {A} (a b : list A) : prefix a b -> prefix b a -> a = b.
Proof.
  intros [x ->] [y Hy]. assert (Hl := f_equal (@length _) Hy). rewrite !app_length in Hl. destruct x; [now rewrite app_nil_r|].
  cbn in Hl. lia.
Qed.
Lemma prefix_total {A} (a b c : list A) : prefix a c -> prefix b c -> prefix a b \/ prefix b a.
Proof.
  intros Ha Hb. destruct (le_lt_dec (length a) (length b)) as [H|H].
  - left. rewrite <- (prefix_firstn _ _ Ha), <- (prefix_firstn _ _ Hb).
    replace (firstn (length a) c) with (firstn (length a) (firstn (length b) c)) by (rewrite firstn_firstn; f_equal; lia).
    apply prefix_firstn_self.
  - right. rewrite <- (prefix_firstn _ _ Ha), <- (prefix_firstn _ _ Hb).
    replace (firstn (length b) c) with (firstn (length b) (firstn (length a) c)) by (rewrite firstn_firstn; f_equal; lia).
    apply prefix_firstn_self.
Qed.
Lemma common_length p q r : prefix r q -> (length r <= length (common_path p q) <-> prefix r p).
Proof.
  intros Hr. split.
  - intros H. pose proof (common_prefix_r p q) as Hc. destruct (prefix_total _ _ _ Hr Hc) as [Hx|Hx].
    + eapply prefix_trans; [exact Hx|]. apply common_prefix_l.
    + pose proof (prefix_length _ _ Hx). destruct Hx as [y Hy].
      assert (y = []) as -> by (apply (f_equal (@length _)) in Hy; rewrite app_length in Hy; destruct y; [reflexivity|cbn in Hy; lia]).
      rewrite app_nil_r in Hy. rewrite Hy. apply common_prefix_l.
  - intros H. apply prefix_length. now apply common_greatest.
Qed.

Section Doc.
Variable sp : N -> bool.
Variable node_ok : str -> list (str * str) -> bool.
Variable m : list (str * str).
Variable ls : list line.
Hypothesis Hall : forall t, In t (concat ls) -> is_space sp t = false -> found_again sp node_ok m ls t.
Let word t := In t (concat ls) /\ is_space sp t = false.

Lemma found_same t0 t : word t0 -> word t -> main_path m t <> [] ->
  (prefix (main_path m t) (required_path m t0) <-> main_path m t0 = main_path m t).
Proof.
  intros [H1 H2] [H3 H4] Hne. split.
  2:{ intros <-. apply main_prefix_required. }
  intros Hp. pose proof (Hall _ H1 H2) as F0. pose proof (Hall _ H3 H4) as F1. unfold found_again in F0, F1.
  rewrite <- main_tag_path in F0, F1. cbv zeta in F0, F1.
  destruct F1 as [[F1 _]|(_ & _ & F1 & G1)]; [congruence|].
  destruct F0 as [[F0 F0']|(F0n & _ & F0 & G0)].
  { rewrite F0' in Hp. destruct Hp as [x Hp]. symmetry in Hp. apply app_eq_nil in Hp as [Hp _]. congruence. }
  destruct (list_eq_dec (list_eq_dec N.eq_dec) (main_path m t0) (main_path m t)) as [|Hd]; [assumption|exfalso].
  destruct (prefix_total _ _ _ (main_prefix_required m t0) Hp) as [Hx|Hx].
  - destruct (G1 _ Hx F0n Hd) as [A B]. destruct F0 as [F0|F0]; [now apply A|]. now apply (B t0 H1 H2).
  - destruct (G0 _ Hx Hne ltac:(congruence)) as [A B]. destruct F1 as [F1|F1]; [now apply A|]. now apply (B t H3 H4).
Qed.

Lemma keep_starts t0 rs t : word t -> main_path m t <> [] ->
  match t0 with Some t0 => word t0 | None => True end ->
  (length (keep m (match t0 with Some t0 => required_path m t0 | None => [] end) rs t) <? length (main_path m t))
  = starts m t0 rs t.
Proof.
  intros Ht Hne H0. set (path := match t0 with Some t0 => required_path m t0 | None => [] end).
  assert (Hn : 0 < length (main_path m t)) by (destruct (main_path m t); [congruence|cbn; lia]).
  assert (Hpre : prefix (main_path m t) path <->
    match t0 with None => true | Some t0 => negb (path_eqb (main_path m t0) (main_path m t)) end = false).
  { unfold path. destruct t0 as [t0|].
    - rewrite negb_false_iff, path_eqb_true. now apply found_same.
    - split; [|discriminate]. intros [x Hx]. symmetry in Hx. apply app_eq_nil in Hx as [Hx _]. congruence. }
  unfold starts, keep. rewrite shown_split, shown_sub_split. cbn [fst]. fold (begin (shown_tag t)) (begin (shown_sub_tag t)).
  rewrite <- main_tag_path. replace (match t0 with Some t1 => _ | None => true end) with
    (match t0 with None => true | Some t0 => negb (path_eqb (main_path m t0) (main_path m t)) end) by (destruct t0; reflexivity).
  set (other := match t0 with None => true | Some t0 => negb (path_eqb (main_path m t0) (main_path m t)) end) in *.
  destruct (begin (shown_tag t)).
  { cbn [orb]. apply Nat.ltb_lt. pose proof (prefix_length _ _ (common_prefix_r path (removelast (main_path m t)))) as HL.
    rewrite removelast_length in HL. lia. }
  cbn [orb]. destruct (omem (value (shown_tag t)) rs); [now apply Nat.ltb_lt|]. cbn [orb].
  destruct (begin (shown_sub_tag t)) eqn:Eb.
  - cbn [andb]. unfold sub_path.
    assert (Et : truthy (sub_full_tag t) = true).
    { unfold begin in Eb. change (shown_sub_tag t) with (sub_full_tag t) in Eb.
      destruct (sub_full_tag t) as [[|]|]; try discriminate. reflexivity. }
    rewrite Et. cbv zeta.
    change (tag_required_path m (strip_tag_prefix (sub_full_tag t))) with (tag_path m (value (shown_sub_tag t))).
    set (q := tag_path m (value (shown_sub_tag t))).
    destruct (path_starts_with (main_path m t) q) eqn:Es; cbn [negb orb].
    + apply starts_prefix in Es. destruct (path_eqb q (main_path m t)) eqn:Eq.
      * apply path_eqb_true in Eq. rewrite orb_true_r. apply Nat.ltb_lt.
        pose proof (prefix_length _ _ (common_prefix_r path (removelast q))) as HL. rewrite removelast_length, Eq in HL. rewrite Eq. lia.
      * rewrite orb_false_r.
        assert (Hr : prefix (main_path m t) (removelast q)).
        { destruct Es as [x Hx]. destruct x as [|y x].
          - exfalso. rewrite app_nil_r in Hx. apply path_eqb_true in Hx. congruence.
          - rewrite Hx, removelast_app by discriminate. now eexists. }
        pose proof (common_length path _ _ Hr) as HC. destruct other eqn:Eo.
        -- apply Nat.ltb_lt. destruct (le_lt_dec (length (main_path m t)) (length (common_path path (removelast q)))) as [Hl|Hl]; [|exact Hl].
           exfalso. apply HC in Hl. apply Hpre in Hl. discriminate.
        -- apply Nat.ltb_ge. apply HC. now apply Hpre.
    + rewrite orb_true_r. now apply Nat.ltb_lt.
  - cbn [andb]. rewrite orb_false_r. pose proof (common_length path _ _ (main_prefix_required m t)) as HC.
    destruct other eqn:Eo.
    + apply Nat.ltb_lt. destruct (le_lt_dec (length (main_path m t)) (length (common_path path (required_path m t)))) as [Hl|Hl]; [|exact Hl].
      exfalso. apply HC in Hl. apply Hpre in Hl. discriminate.
    + apply Nat.ltb_ge. apply HC. now apply Hpre.
Qed.

Lemma linked_fresh path a earlier rs t b W : linked node_ok m path a earlier ((rs, t, b) :: W) ->
  (a = [] \/ In a earlier) ->
  fresh_word m a t b = negb (Nat.eqb (length (main_path m t)) 0) && (length (keep m path rs t) <? length (main_path m t)).
Proof.
  cbn [linked]. intros (H1 & H2 & H3 & H4 & H5 & _) Ha. unfold fresh_word.
  destruct (Nat.eqb (length (main_path m t)) 0) eqn:E0; [reflexivity|]. cbn [negb andb]. apply Nat.eqb_neq in E0.
  apply Forall2_length in H1.
  pose proof (prefix_length _ _ (main_prefix_required m t)) as Hm. set (n := length (main_path m t)) in *. set (k := length (keep m path rs t)) in *.
  assert (Hnb : n <= length b) by (eapply Nat.le_trans; [exact Hm|]; apply Nat.eq_le_incl; exact H1).
  destruct (prefixb (firstn n b) a) eqn:Ep; cbn [negb].
  - symmetry. apply Nat.ltb_ge. apply prefixb_true in Ep. destruct (le_lt_dec n k) as [Hl|Hl]; [exact Hl|exfalso].
    destruct Ha as [->|Ha].
    + apply prefix_length in Ep. rewrite firstn_length in Ep. cbn [length] in Ep. lia.
    + apply (H5 (Nat.lt_le_trans _ _ _ Hl Hnb) a Ha). eapply prefix_trans; [|exact Ep].
      replace (firstn (S k) b) with (firstn (S k) (firstn n b)) by (rewrite firstn_firstn; f_equal; lia). apply prefix_firstn_self.
  - symmetry. apply Nat.ltb_lt. destruct (le_lt_dec n k) as [Hl|Hl]; [exfalso|exact Hl].
    assert (prefixb (firstn n b) a = true); [|congruence]. apply prefixb_true.
    replace (firstn n b) with (firstn n (firstn k b)) by (rewrite firstn_firstn; f_equal; lia). rewrite H4, firstn_firstn.
    apply prefix_firstn_self.
Qed.

Variable r : xml.
Let rp := map snd m.
Let L := flat [] r.

Lemma evm_wrm evs : forall W path a earlier prev,
  ev_words sp evs = map (fun x => (snd (fst x), snd x)) W ->
  linked node_ok m path a earlier W -> (a = [] \/ In a earlier) ->
  path = match prev with Some t0 => required_path m t0 | None => [] end ->
  match prev with Some t0 => word t0 | None => True end ->
  (forall t b, In (t, b) (ev_words sp evs) -> word t /\ good sp rp L m t b /\
     norm (option_map (field_of m) (V sp rp L b)) = loaded_value m (tag_path m (value (shown_tag t)))) ->
  map (lift3 (field_of m)) (evm sp rp L m a evs) = wrm sp m prev (ev_skeleton sp evs) (map fst W).
Proof.
  induction evs as [|[t b|b] evs IH]; intros W path a earlier prev HW HL Ha Hp Hprev Hg; [reflexivity| |].
  - unfold ev_words, ev_skeleton in *. cbn [flat_map evm] in *. fold (ev_words sp evs) in *. fold (ev_skeleton sp evs).
    destruct (is_space sp t) eqn:Es.
    + cbn [app] in *. eapply IH; eauto.
    + cbn [app] in *. destruct W as [|[[rs t'] b'] W]; [discriminate|]. cbn [map fst snd] in HW. injection HW as <- <- HW.
      destruct (Hg t b (or_introl eq_refl)) as (Hwd & Hgd & HV).
      pose proof (linked_fresh _ _ _ _ _ _ _ HL Ha) as Hfr.
      cbn [wrm map fst]. rewrite map_app. f_equal.
      * unfold word_marks. rewrite <- filter_lift3, lift3_text, chars_marks, HV. f_equal.
        rewrite <- norm_truthy, HV, Hfr.
        destruct (truthy (loaded_value m (tag_path m (value (shown_tag t))))) eqn:Etv; [|reflexivity]. cbn [andb].
        assert (Hne : main_path m t <> []).
        { intros C. rewrite <- main_tag_path, C in Etv. discriminate. }
        rewrite Hp, keep_starts by assumption. destruct (main_path m t); [congruence|]. reflexivity.
      * cbn [linked] in HL. destruct HL as (_ & _ & _ & _ & _ & HL).
        apply (IH W (required_path m t) b (earlier ++ [b]) (Some t)); auto.
        -- right. apply in_or_app. right. now left.
        -- intros t' b' Hin. apply Hg. now right.
  - unfold ev_words, ev_skeleton in *. cbn [flat_map evm app map lift3 wrm] in *. f_equal. eapply IH; eauto.
Qed.
End Doc.

Lemma canonical_prefix node_ok p q : prefix p q -> canonical node_ok q -> canonical node_ok p.
Proof. intros [x ->] H. unfold canonical in *. now apply Forall_app in H. Qed.

(* ---------------------------------------------------------------- *)
(** ** Theorems *)

(** what is known about a saved tree whose words are found again *)
Lemma reload_setup sp node_ok m name ls r :
  name <> [] ->
  lines_to_tei sp node_ok m name ls = Ok r ->
  (forall t, In t (concat ls) -> is_space sp t = false -> found_again sp node_ok m ls t) ->
  exists evs W text cs, r = Elem name [] text cs [] /\ flat [] r = flat_map flat_ev evs /\
    map fst W = words_of sp (concat ls) /\
    ev_words sp evs = map (fun x => (snd (fst x), snd x)) W /\ ev_skeleton sp evs = skeleton sp (lines_items ls) /\
    linked node_ok m [] [] [] W /\ placed sp [] evs /\ spaced sp m [] evs /\
    fine r = true /\ tidy r = true /\ named r = true /\
    (forall t a, In (t, a) (ev_words sp evs) -> exprs a = required_path m t /\
      (In t (concat ls) /\ is_space sp t = false) /\ good sp (map snd m) (flat [] r) m t a /\
      norm (option_map (field_of m) (V sp (map snd m) (flat [] r) a)) = loaded_value m (tag_path m (value (shown_tag t)))).
Proof.
  intros Hn H Hk.
  pose proof (lines_to_tei_layout _ _ _ _ _ _ H) as (evs & W & L1 & L2 & L3 & L4 & L5 & L6 & L7 & L8).
  pose proof (lines_to_tei_fine _ _ _ _ _ _ H) as (Hf & text & cs & Er). subst r.
  set (r := Elem name [] text cs []) in *.
  assert (Hcan : forall t, In t (concat ls) -> is_space sp t = false -> canonical node_ok (required_path m t)).
  { intros t H1 H2. destruct (Hk t H1 H2) as [[_ ->]|(_ & Hc & _)]; [constructor|exact Hc]. }
  assert (Hw : forall t a, In (t, a) (ev_words sp evs) ->
     (In t (concat ls) /\ is_space sp t = false) /\ located node_ok (required_path m t) a).
  { intros t a Hin. rewrite L4 in Hin. apply in_map_iff in Hin as ([[rs t'] a'] & E & Hin). cbn in E. injection E as -> ->.
    apply linked_located in L6. rewrite Forall_forall in L6. specialize (L6 _ Hin). cbn [fst snd] in L6.
    assert (Hin2 : In t (map snd (map fst W))) by (rewrite map_map; apply in_map_iff; exists (rs, t, a); auto).
    rewrite L3 in Hin2. apply words_go_in in Hin2. auto. }
  assert (Hex : forall t a, In (t, a) (ev_words sp evs) -> exprs a = required_path m t /\ no_lb node_ok (required_path m t)).
  { intros t a Hin. destruct (Hw _ _ Hin) as [[K1 K2] K3]. apply (located_exprs _ _ _ K3). now apply Hcan. }
  assert (Hnl : forall t, In t (concat ls) -> is_space sp t = false -> no_lb node_ok (required_path m t)).
  { intros t Ht Hs. assert (Hin2 : In t (map snd (map fst W))) by (rewrite L3; apply words_go_in; auto).
    rewrite map_map in Hin2. apply in_map_iff in Hin2 as ([[rs t'] a] & E & Hin). cbn in E. subst t'.
    assert (Hin3 : In (t, a) (ev_words sp evs)) by (rewrite L4; apply in_map_iff; exists (rs, t, a); auto).
    apply (Hex _ _ Hin3). }
  pose proof (lines_to_tei_tidy _ _ _ _ _ _ Hnl H) as Ht.
  assert (Hname : named r = true) by (apply fine_named; [exact Hf|exact Hn]).
  set (rp := map snd m) in *.
  set (L := flat [] r) in *.
  (* where text lies directly *)
  assert (Hdir : forall b, direct sp L b = true -> exists t, In (t, b) (ev_words sp evs)).
  { intros b Hb. apply direct_true in Hb as (c & Hin & Hs). rewrite L1 in Hin. apply in_flat_map in Hin as (e & He & Hin).
    destruct e as [t a|a]; [|destruct Hin as [Hin|[]]; discriminate].
    cbn [flat_ev] in Hin. apply in_map_iff in Hin as (x & Hx & Hinx). injection Hx as -> ->.
    assert (Hsp : is_space sp t = false).
    { unfold is_space. apply not_true_iff_false. intros Hbl. unfold blank in Hbl. rewrite forallb_forall in Hbl.
      rewrite (Hbl _ Hinx) in Hs. discriminate. }
    exists t. unfold ev_words. apply in_flat_map. exists (EvTok t b). split; [exact He|]. rewrite Hsp. now left. }
  assert (Hdir2 : forall t b, In (t, b) (ev_words sp evs) -> direct sp L b = true).
  { intros t b Hin. unfold ev_words in Hin. apply in_flat_map in Hin as ([t' a|a] & He & Hin); [|destruct Hin].
    destruct (is_space sp t') eqn:Es; [destruct Hin|]. destruct Hin as [Hin|[]]. injection Hin as -> ->.
    apply nonblank_char in Es as (c & Hc & Hs). apply direct_true. exists c. split; [|exact Hs]. rewrite L1.
    apply in_flat_map. exists (EvTok t b). split; [exact He|]. cbn. now apply in_map. }
  assert (Hgood : forall t a, In (t, a) (ev_words sp evs) -> (In t (concat ls) /\ is_space sp t = false) /\ good sp rp L m t a /\
     norm (option_map (field_of m) (V sp rp L a)) = loaded_value m (tag_path m (value (shown_tag t)))).
  { intros t a Hin. destruct (Hw _ _ Hin) as [[K1 K2] K3]. split; [auto|]. destruct (Hex _ _ Hin) as [X1 _].
    pose proof (Hk t K1 K2) as F. unfold found_again in F. rewrite <- main_tag_path in F. cbv zeta in F. rewrite <- main_tag_path.
    pose proof (prefix_length _ _ (main_prefix_required m t)) as Hmr.
    assert (Hla : length a = length (required_path m t)) by (rewrite <- X1; unfold exprs; now rewrite map_length).
    assert (G : good sp rp L m t a).
    { unfold good. cbv zeta. split; [lia|]. destruct F as [[F1 F2]|(F1 & F2 & F3 & F4)].
      - split; [|rewrite F1; cbn; lia]. intros _. destruct a; [reflexivity|]. rewrite F2 in Hla. discriminate.
      - split; [intros C; destruct (main_path m t); [congruence|discriminate]|]. intros Hn0.
        assert (Hea : exprs (firstn (length (main_path m t)) a) = main_path m t).
        { rewrite exprs_firstn, X1. apply prefix_firstn, main_prefix_required. }
        split.
        + intros b Hb1 Hb2 Hb3.
          assert (P1 : prefix (exprs b) (main_path m t)).
          { rewrite <- Hea. destruct Hb1 as [c ->]. exists (exprs c). unfold exprs. apply map_app. }
          assert (P2 : exprs b <> []) by (destruct b; [congruence|discriminate]).
          assert (P3 : exprs b <> main_path m t).
          { intros E1. apply Hb3. destruct Hb1 as [c Hc]. rewrite Hc in Hea. rewrite Hc.
            assert (HLc : length (exprs b) = length (exprs (b ++ c))) by (now rewrite E1, Hea).
            unfold exprs in HLc. rewrite !map_length, app_length in HLc. destruct c; [now rewrite app_nil_r|cbn in HLc; lia]. }
          destruct (F4 _ P1 P2 P3) as [F5 F6]. unfold ent. apply orb_false_iff. split; [now apply mem_nIn|].
          apply not_true_iff_false. intros Hd. apply Hdir in Hd as (t' & Hin'). destruct (Hw _ _ Hin') as [[K1' K2'] _].
          apply (F6 t' K1' K2'). symmetry. apply (Hex _ _ Hin').
        + unfold ent. apply orb_true_iff. destruct F3 as [F3|F3].
          * left. apply mem_In. now rewrite Hea.
          * right. apply (Hdir2 t). rewrite firstn_all2; [exact Hin|]. rewrite Hla, F3. lia. }
    split; [exact G|]. unfold V. rewrite (good_E sp rp L m t a G).
    destruct (main_path m t) as [|f0 p0] eqn:Em; [reflexivity|]. rewrite <- Em.
    replace (Nat.eqb (length (main_path m t)) 0) with false by (rewrite Em; reflexivity).
    cbn [option_map]. rewrite exprs_firstn, X1, (prefix_firstn _ _ (main_prefix_required m t)), Em. reflexivity. }
  exists evs, W, text, cs. repeat (split; [first [assumption|reflexivity]|]).
  intros t a Hin. split; [apply (Hex t a Hin)|apply (Hgood t a Hin)].
Qed.

(** Exactly what is loaded after saving: lines, characters, values and begin tags. *)
Theorem C07_reloaded : forall sp wd up lo node_ok mapping name ls r ls' l0 last,
  name <> [] ->
  lines_to_tei sp node_ok mapping name ls = Ok r ->
  new_document sp wd up lo mapping true [r] = Ok ls' ->
  (forall t, In t (concat ls) -> is_space sp t = false -> found_again sp node_ok mapping ls t) ->
  (* the last line is not blank *)
  ls = l0 ++ [last] -> (exists t, In t last /\ is_space sp t = false) ->
  sep (map (flags sp ptag) ls') = reloaded sp mapping None [] (lines_items ls) /\ ls' <> [].
Proof.
  intros sp wd up lo node_ok m name ls r ls' l0 last Hn H H' Hk Hls Hlast.
  destruct (reload_setup sp node_ok m name ls r Hn H Hk)
    as (evs & W & text & cs & Er & L1 & L3 & L4 & L5 & L6 & L7 & L8 & Hf & Ht & Hname & Hgood0).
  assert (Hgood := fun t a Hin => proj2 (Hgood0 t a Hin)). clear Hgood0. subst r.
  set (r := Elem name [] text cs []) in *.
  pose proof (C57_main_tags _ _ _ _ _ _ _ Hname H') as [Hit _].
  set (rp := map snd m) in *. set (its := container_items sp wd up lo rp r) in *.
  set (L := flat [] r) in *.
  assert (HE : filter (inked3 sp) (flat_map item_marks its) = evm sp rp L m [] evs).
  { unfold its, r. rewrite (container_marks sp wd up lo rp L) by (auto; reflexivity).
    transitivity (filter (inked3 sp) (pm sp rp L None (flat_map flat_ev evs))); [do 2 f_equal; exact L1|].
    apply evs_marks; auto.
    - unfold ready. destruct (next_word sp evs) as [[w b]|] eqn:En; [|exact I]. cbv zeta. intros Hn0.
      apply next_word_in in En. destruct (Hgood _ _ En) as (_ & (G1 & _) & _). split; [discriminate|].
      intros Hp. apply prefix_length in Hp. rewrite firstn_length in Hp. cbn in Hp. lia.
    - intros t a Hin. apply (Hgood t a Hin). }
  assert (HR : map (lift3 (field_of m)) (evm sp rp L m [] evs) = reloaded sp m None [] (lines_items ls)).
  { etransitivity; [apply (evm_wrm sp node_ok m ls Hk r evs W [] [] [] None); auto|].
    rewrite L5, L3. rewrite <- wrm_reloaded, lines_items_toks. reflexivity. }
  rewrite <- HE in HR.
  (* the last item is not a line break *)
  assert (Hlast_ink : exists x y, reloaded sp m None [] (lines_items ls) = x ++ [Some y]).
  { destruct Hlast as (t & Hin & Hs). apply in_split in Hin as (u1 & u2 & ->).
    assert (Gsp : forall v p q, chars sp (tx t) v p = [] -> q = @nil mark -> False).
    { intros v p q Hc _. apply nonblank_char in Hs as (c & Hc1 & Hc2). rewrite <- chars_marks in Hc.
      assert (Hi : exists f, In (Some (c, v, f)) (text_marks (tx t) v p)).
      { destruct (tx t) as [|d s]; [destruct Hc1|]. destruct Hc1 as [->|Hc1]; [exists p; now left|].
        exists false. right. apply in_map_iff. eauto. }
      destruct Hi as [f Hi]. assert (Hx : In (Some (c, v, f)) (filter (inked3 sp) (text_marks (tx t) v p))).
      { apply filter_In. split; [exact Hi|]. cbn. now rewrite Hc2. }
      rewrite Hc in Hx. destruct Hx. }
    assert (Gc : forall v p, exists x y, chars sp (tx t) v p = x ++ [Some y]).
    { intros v p. destruct (exists_last (fun E => Gsp v p [] E eq_refl)) as (x & [y|] & E); [eauto|exfalso].
      assert (Hx : In None (chars sp (tx t) v p)) by (rewrite E; apply in_or_app; right; now left).
      unfold chars in Hx. destruct (tx t); [destruct Hx|]. apply in_map_iff in Hx as (z & Hz & _). discriminate. }
    assert (G2 : forall l : line, forall prev rs, (exists x y, reloaded sp m prev rs (map Some l) = x ++ [Some y]) \/ reloaded sp m prev rs (map Some l) = []).
    { induction l as [|t' l IHl]; intros prev rs; [now right|]. cbn [map reloaded]. destruct (is_space sp t'); [apply IHl|].
      destruct (IHl (Some t') []) as [(x & y & Ex)|Ex]; rewrite Ex.
      - left. eexists _, y. now rewrite app_assoc.
      - rewrite app_nil_r. cbv zeta. destruct (chars sp (tx t') _ _) as [|z zs] eqn:Ez using rev_ind; [now right|]. clear IHzs.
        destruct z as [z|]; [left; eauto|exfalso].
        assert (Hx : In None (zs ++ [None])) by (apply in_or_app; right; now left). rewrite <- Ez in Hx.
        unfold chars in Hx. destruct (tx t'); [destruct Hx|]. apply in_map_iff in Hx as (w & Hz & _). discriminate. }
    assert (Gapp : forall a b prev rs, exists prev' rs', reloaded sp m prev rs (a ++ b) = reloaded sp m prev rs a ++ reloaded sp m prev' rs' b).
    { induction a as [|[t'|] a IHa]; intros b prev rs; [eexists _, _; reflexivity| |]; cbn [app reloaded].
      - destruct (is_space sp t'); [apply IHa|]. destruct (IHa b (Some t') []) as (p' & r' & E). exists p', r'. cbv zeta. rewrite E. now rewrite app_assoc.
      - destruct (IHa b prev rs) as (p' & r' & E). exists p', r'. now rewrite E. }
    assert (Hli : exists X, lines_items ls = X ++ map Some (t :: u2)).
    { rewrite Hls. destruct l0 as [|k ks].
      - cbn [app lines_items flat_map]. rewrite app_nil_r, map_app. eauto.
      - cbn [app lines_items]. rewrite flat_map_app. cbn [flat_map]. rewrite app_nil_r, map_app.
        exists (map Some k ++ flat_map (fun l => None :: map Some l) ks ++ None :: map Some u1). rewrite <- !app_assoc. reflexivity. }
    destruct Hli as [X ->]. destruct (Gapp X (map Some (t :: u2)) None []) as (p' & r' & ->).
    cbn [map reloaded]. rewrite Hs. cbv zeta. destruct (G2 u2 (Some t) []) as [(x & y & Ex)|Ex]; rewrite Ex.
    - eexists _, y. now rewrite !app_assoc.
    - rewrite app_nil_r. destruct (Gc (loaded_value m (tag_path m (value (shown_tag t)))) (truthy (loaded_value m (tag_path m (value (shown_tag t)))) && starts m p' r' t)) as (x & y & Ey).
      rewrite Ey. eexists _, y. now rewrite app_assoc. }
  assert (Hwf : without_final_break its = its).
  { destruct its as [|i0 its0] eqn:Ei; [reflexivity|]. assert (Hni : i0 :: its0 <> []) by discriminate.
    destruct (exists_last Hni) as (l & i & El). rewrite El in *. destruct i as [s t|]; [apply without_final_break_tok|].
    exfalso. rewrite flat_map_app, filter_app, map_app in HR. cbn in HR.
    destruct Hlast_ink as (x & y & Ex). rewrite Ex in HR. apply app_inj_tail in HR as [_ HR]. discriminate. }
  rewrite Hwf in Hit. split.
  - rewrite <- lines_marks, Hit, rename_marks by (apply prefixed_container). now rewrite filter_lift3.
  - intros ->. cbn [items_of_lines] in Hit. symmetry in Hit. apply map_eq_nil in Hit. rewrite Hit in HR. cbn [flat_map filter map] in HR.
    destruct Hlast_ink as (x & y & Ex). rewrite Ex in HR. symmetry in HR. apply app_eq_nil in HR as [_ HR]. discriminate.
Qed.

(* ---------------------------------------------------------------- *)
(** The tag of a word denotes a path that is loaded as this tag. *)
Definition keeps_value (m : list (str * str)) (t : tok) : Prop :=
  value (shown_tag t) <> Some [] /\
  loaded_value m (tag_path m (value (shown_tag t))) = value (shown_tag t).
(** Words with a tag that is no begin tag continue the tag of the word before: it has
    the same value and there is no begin tag on a space between; a begin sub tag
    lies strictly below the main tag. *)
Fixpoint well_tagged (sp : N -> bool) (m : list (str * str)) (prev : option tok) (rs : list str) (l : list tok) : Prop :=
  match l with
  | [] => True
  | t :: l' =>
      if is_space sp t
      then well_tagged sp m prev (match begins t with Some v => v :: rs | None => rs end) l'
      else
        (forall v, begin (shown_tag t) = false -> value (shown_tag t) = Some v ->
           ~ In v rs /\
           (exists t0, prev = Some t0 /\ value (shown_tag t0) = Some v) /\
           (begin (shown_sub_tag t) = true ->
              let q := tag_path m (value (shown_sub_tag t)) in prefix (path_of m v) q /\ q <> path_of m v))
        /\ well_tagged sp m (Some t) [] l'
  end.

Lemma chars_blank sp s v b : blank sp s = true -> chars sp s v b = [].
Proof.
  destruct s as [|c s]; [reflexivity|]. unfold blank. cbn [forallb chars filter fst]. intros H. apply andb_true_iff in H as [-> H].
  cbn [negb]. induction s as [|d s IH]; [reflexivity|]. cbn [forallb map filter fst] in *. apply andb_true_iff in H as [-> H]. cbn [negb].
  now apply IH.
Qed.
Lemma value_none o : value o = None -> begin o = false.
Proof.
  unfold value, begin, split_tag_prefix. destruct o as [[|c s]|]; try reflexivity; cbn [snd]; try discriminate.
  destruct (starts_with _ _); [discriminate|]. destruct (starts_with _ _); discriminate.
Qed.
Lemma starts_begin sp m prev rs t l : is_space sp t = false -> keeps_value m t -> well_tagged sp m prev rs (t :: l) ->
  chars sp (tx t) (loaded_value m (tag_path m (value (shown_tag t)))) 
    (truthy (loaded_value m (tag_path m (value (shown_tag t)))) && starts m prev rs t)
  = chars sp (tx t) (norm (value (shown_tag t))) (begin (shown_tag t)).
Proof.
  intros Hs [Hv Hk] Hw. cbn [well_tagged] in Hw. rewrite Hs in Hw. destruct Hw as [Hw _].
  rewrite Hk. destruct (value (shown_tag t)) as [[|c v]|] eqn:Ev; [exfalso; now apply Hv| |].
  - cbn [norm truthy andb]. f_equal. unfold starts. rewrite Ev. destruct (begin (shown_tag t)) eqn:Eb; [reflexivity|]. cbn [orb].
    destruct (Hw _ eq_refl eq_refl) as (H1 & (t0 & -> & H2) & H3). cbn [omem].
    rewrite (proj2 (mem_nIn _ _) H1), H2. cbn [orb].
    match goal with |- context [path_eqb ?x ?x] => rewrite (proj2 (path_eqb_true x x) eq_refl) end.
    cbn [negb orb]. destruct (begin (shown_sub_tag t)); [|reflexivity]. cbn [andb]. destruct (H3 eq_refl) as [H4 H5].
    apply orb_false_iff. split.
    + apply negb_false_iff. now apply starts_prefix.
    + apply not_true_iff_false. rewrite path_eqb_true. exact H5.
  - cbn [truthy andb norm]. now rewrite (value_none _ Ev).
Qed.
Lemma reloaded_same sp m l : forall prev rs,
  (forall t, In (Some t) l -> is_space sp t = false -> keeps_value m t) ->
  well_tagged sp m prev rs (flat_map (fun o => match o with Some t => [t] | None => [] end) l) ->
  reloaded sp m prev rs l =
  flat_map (fun o => match o with Some t => chars sp (tx t) (norm (value (shown_tag t))) (begin (shown_tag t)) | None => [None] end) l.
Proof.
  induction l as [|[t|] l IH]; intros prev rs Hk Hw; [reflexivity| |].
  - cbn [flat_map app reloaded] in *. destruct (is_space sp t) eqn:Es.
    + rewrite (chars_blank sp (tx t) _ _ Es). cbn [app]. cbn [well_tagged] in Hw. rewrite Es in Hw. apply IH; [|exact Hw].
      intros t' Hin. apply Hk. now right.
    + cbv zeta. rewrite (starts_begin _ _ _ _ _ _ Es (Hk t (or_introl eq_refl) Es) Hw). f_equal.
      cbn [well_tagged] in Hw. rewrite Es in Hw. apply IH; [|apply Hw]. intros t' Hin. apply Hk. now right.
  - cbn [flat_map app reloaded] in *. f_equal. apply IH; [|exact Hw]. intros t' Hin. apply Hk. now right.
Qed.
Lemma flags_sep sp f ls :
  flat_map (fun o => match o with Some t => chars sp (tx t) (norm (value (f t))) (begin (f t)) | None => [None] end) (lines_items ls)
  = sep (map (flags sp f) ls).
Proof.
  assert (G : forall l : list tok, flat_map (fun o => match o with Some t => chars sp (tx t) (norm (value (f t))) (begin (f t)) | None => [None] end) (map Some l) = map Some (flags sp f l)).
  { intros l. rewrite flags_chars. induction l as [|t l IH]; [reflexivity|]. cbn [map flat_map]. now rewrite IH. }
  destruct ls as [|l ls]; [reflexivity|]. cbn [lines_items map sep]. rewrite flat_map_app, G. f_equal.
  induction ls as [|l' ls IH]; [reflexivity|]. cbn [flat_map map]. rewrite flat_map_app, IH. cbn [flat_map app]. now rewrite G.
Qed.

(** Lines, characters, main tags and begin tags are the same after saving and loading. *)
Theorem C07_prefixes : forall sp wd up lo node_ok mapping name ls r ls' l0 last,
  name <> [] ->
  lines_to_tei sp node_ok mapping name ls = Ok r ->
  new_document sp wd up lo mapping true [r] = Ok ls' ->
  (forall t, In t (concat ls) -> is_space sp t = false -> found_again sp node_ok mapping ls t /\ keeps_value mapping t) ->
  well_tagged sp mapping None [] (concat ls) ->
  ls = l0 ++ [last] -> (exists t, In t last /\ is_space sp t = false) ->
  map (flags sp ptag) ls' = map (flags sp shown_tag) ls.
Proof.
  intros sp wd up lo node_ok m name ls r ls' l0 last Hn H H' Hk Hw Hls Hlast.
  destruct (C07_reloaded sp wd up lo node_ok m name ls r ls' l0 last Hn H H') as [HS Hne]; auto.
  { intros t H1 H2. now apply Hk. }
  rewrite reloaded_same, flags_sep in HS.
  - apply sep_inj in HS; [exact HS| |].
    + now destruct ls'.
    + rewrite Hls. destruct l0; discriminate.
  - intros t Hin Hs. apply Hk; [|exact Hs]. rewrite <- lines_items_toks. apply in_flat_map. exists (Some t). split; [exact Hin|now left].
  - now rewrite lines_items_toks.
Qed.

(* ---------------------------------------------------------------- *)
(** ** Examples *)

(** deciding the hypotheses *)
Definition canonicalb (node_ok : str -> list (str * str) -> bool) (p : list str) : bool :=
  forallb (fun f => match create_node node_ok f with
    | Ok (n, a) => negb (streq n (u "lb"))
        && match node_to_tag_expression (Elem n a [] [] []) with Ok f' => streq f' f | Err _ => false end
    | Err _ => true end) p.
Lemma canonicalb_ok node_ok p : canonicalb node_ok p = true -> canonical node_ok p.
Proof.
  unfold canonicalb. rewrite forallb_forall. intros H. apply Forall_forall. intros f Hf n a E. specialize (H f Hf). rewrite E in H.
  apply andb_true_iff in H as [H1 H2]. split.
  - intros ->. apply negb_true_iff in H1. rewrite (proj2 (streq_true _ _) eq_refl) in H1. discriminate.
  - intros text cs tl. destruct (node_to_tag_expression (Elem n a [] [] [])) as [f'|] eqn:E2; [|discriminate].
    apply streq_true in H2. subst f'. exact E2.
Qed.
Definition found_againb (sp : N -> bool) (node_ok : str -> list (str * str) -> bool) (m : list (str * str)) (ls : list line) (t : tok) : bool :=
  let p := tag_path m (value (shown_tag t)) in
  match p with
  | [] => path_eqb (required_path m t) []
  | _ => canonicalb node_ok (required_path m t)
      && (mem (join_path p) (map snd m) || path_eqb (required_path m t) p)
      && forallb (fun q => negb (mem (join_path q) (map snd m))
           && forallb (fun t' => is_space sp t' || negb (path_eqb (required_path m t') q)) (concat ls)) (inits (removelast p))
  end.
Lemma found_againb_ok sp node_ok m ls t : found_againb sp node_ok m ls t = true -> found_again sp node_ok m ls t.
Proof.
  unfold found_againb, found_again. cbv zeta. destruct (tag_path m (value (shown_tag t))) as [|f p] eqn:E.
  - intros H. left. split; [reflexivity|]. now apply path_eqb_true.
  - rewrite <- E. intros H. right. split; [rewrite E; discriminate|]. rewrite !andb_true_iff, orb_true_iff in H. destruct H as [[H1 H2] H3].
    split; [now apply canonicalb_ok|]. split.
    { destruct H2 as [H2|H2]; [left; now apply mem_In|right; now apply path_eqb_true]. }
    intros q Hq Hne Hd. rewrite forallb_forall in H3. specialize (H3 q). 
    assert (Hin : In q (inits (removelast (tag_path m (value (shown_tag t)))))).
    { apply in_inits. split; [|exact Hne]. destruct Hq as [x Hx]. destruct x as [|y x]; [rewrite app_nil_r in Hx; congruence|].
      rewrite Hx, removelast_app by discriminate. now eexists. }
    specialize (H3 Hin). apply andb_true_iff in H3 as [H3 H4]. split.
    + apply mem_nIn. now apply negb_true_iff.
    + intros t' Ht' Hs' Heq. rewrite forallb_forall in H4. specialize (H4 t' Ht'). rewrite Hs' in H4. cbn [orb] in H4.
      rewrite (proj2 (path_eqb_true _ _) Heq) in H4. discriminate.
Qed.

(** part of the mapping of the header command, with its entry for untagged text *)
Definition ex_pmapping : list (str * str) :=
  [([], u "note[@type=""other""]"); (u "title", u "docTitle/titlePart"); (u "byline", u "byline");
   (u "author", u "byline/docAuthor")].
Definition ex_plines : list line :=
  [[mk "Research" None None; mk " " None None; mk "A" (Some (u "b-title")) None; mk " " None None];
   [mk "title" (Some (u "i-title")) None; mk " " (Some (u "i-title")) None; mk "Another" (Some (u "b-title")) None];
   [mk "by" (Some (u "b-byline")) None; mk " " None None; mk "Smith" (Some (u "i-byline")) (Some (u "b-author"));
    mk "2020" None None]].
Example C07_prefixes_ex :
  (forall t, In t (concat ex_plines) -> is_space ascii_space t = false ->
     found_again ascii_space any_node ex_pmapping ex_plines t /\ keeps_value ex_pmapping t) /\
  well_tagged ascii_space ex_pmapping None [] (concat ex_plines) /\
  exists r ls', lines_to_tei ascii_space any_node ex_pmapping (u "front") ex_plines = Ok r /\
    new_document ascii_space ascii_word ascii_upper ascii_lower ex_pmapping true [r] = Ok ls' /\
    map (map (fun t => (tx t, ptag t))) ls' =
     [[(u "Research", Some []); (u " ", None); (u "A", Some (u "b-title"))];
      [(u " ", Some (u "i-title")); (u "title", Some (u "i-title")); (u " ", None); (u "Another", Some (u "b-title"))];
      [(u "by", Some (u "b-byline")); (u " ", Some (u "i-byline")); (u "Smith", Some (u "i-byline")); (u "2020", Some [])]].
Proof.
  split; [|split].
  - assert (G : forallb (fun t => found_againb ascii_space any_node ex_pmapping ex_plines t) (filter (fun t => negb (is_space ascii_space t)) (concat ex_plines)) = true)
      by (vm_compute; reflexivity).
    rewrite forallb_forall in G. intros t Ht Hs. split.
    + apply found_againb_ok, G. apply filter_In. rewrite Hs. auto.
    + cbn [concat ex_plines app] in Ht. repeat (destruct Ht as [<-|Ht]; [first [discriminate Hs|split; [discriminate|vm_compute; reflexivity]]|]).
      destruct Ht.
  - cbn [concat ex_plines app]. 
    assert (S1 : is_space ascii_space (mk " " None None) = true) by reflexivity.
    assert (S2 : is_space ascii_space (mk " " (Some (u "i-title")) None) = true) by reflexivity.
    cbn [well_tagged]. rewrite S1, S2. cbv beta iota.
    repeat match goal with |- context [is_space ascii_space ?t] => replace (is_space ascii_space t) with false by reflexivity end.
    repeat (split; [intros v Hb Hv; first [discriminate Hb | discriminate Hv |
       injection Hv as <-; split; [intros [] |]; split; [eexists; split; reflexivity|]; intros Hq; first [discriminate Hq|
         split; [exists [u "docAuthor"]; reflexivity|vm_compute; discriminate]]] |]).
    exact I.
  - eexists _, _. split; [vm_compute; reflexivity|]. split; [vm_compute; reflexivity|]. vm_compute. reflexivity.
Qed.

(** A word whose inside tag continues nothing begins the entity after loading. *)
Theorem C07_prefixes_refuted : exists ls r ls',
  lines_to_tei ascii_space any_node ex_pmapping (u "front") ls = Ok r /\
  new_document ascii_space ascii_word ascii_upper ascii_lower ex_pmapping true [r] = Ok ls' /\
  map (map shown_tag) ls = [[None; Some (u "i-title")]] /\
  map (map (fun t => norm (value (ptag t)))) ls' = [[None; Some (u "title")]] /\
  map (map (fun t => begin (ptag t))) ls' = [[false; true]].
Proof.
  exists [[mk "x" None None; mk "A" (Some (u "i-title")) None]]. eexists _, _. repeat (split; [vm_compute; reflexivity|]).
  vm_compute. reflexivity.
Qed.
(** A path with entries for both untagged text and a tag: untagged text is tagged after loading. *)
Theorem C07_default_refuted : exists mapping ls r ls',
  lines_to_tei ascii_space any_node mapping (u "text") ls = Ok r /\
  new_document ascii_space ascii_word ascii_upper ascii_lower mapping true [r] = Ok ls' /\
  map (map shown_tag) ls = [[None]] /\ map (map ptag) ls' = [[Some (u "b-body")]].
Proof.
  exists [([], u "body"); (u "body", u "body")], [[mk "x" None None]]. eexists _, _. repeat (split; [vm_compute; reflexivity|]).
  vm_compute. reflexivity.
Qed.

Print Assumptions C07_reloaded.
Print Assumptions C07_prefixes.
Print Assumptions C07_prefixes_refuted.
Print Assumptions C07_default_refuted.
