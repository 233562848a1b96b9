(** C125: the order of all target annotations of a document, and the annotations that the mapping of the
    repository makes of an article altogether. *)
From Coq Require Import Permutation Sorted.
From Verif Require Import Base ModelTags ModelXml ModelClusters PropClusters ModelMapping PropMapping ModelTarget ModelFuzzyMatch ModelJoined ModelWordMatch PropTarget ModelTargets PropTargets PropChildren ModelTei ModelAnnotators ModelCommands ModelRuns ModelArgs RepoConfig
  ModelJatsText ModelXPath PropXPath PropShipped PropShippedPaths ModelPrefixes ModelJson PropJson PropShippedReads PropSaves PropTotal PropCaptions PropFields PropChildFields PropWildFields.
Require Import Lia.
Import ListNotations.
Open Scope list_scope.
Open Scope nat_scope.

(* ---------------------------------------------------------------- *)
(** ** Specification *)
(** where an annotation comes from: its element, and its number among the values that are annotations
    of their own ([None]: the text of the element) *)
Definition origin : Type := npath * option Z * tgt.
Definition of_element (x : origin) : npath := fst (fst x).
Definition number_of (x : origin) : option Z := snd (fst x).
Definition field_of_origin (x : origin) : str := tg_name (snd x).
Definition listed_before (names : list str) (k k' : str) : Prop := exists l1 l2 l3, names = l1 ++ k :: l2 ++ k' :: l3.
Definition number_before (i j : option Z) : Prop :=
  match i, j with None, Some _ => True | Some i, Some j => (i < j)%Z | _, None => False end.
(** fields of a higher priority first, then in document order; annotations of the same element: its text
    before the numbered values; then in the order of the fields *)
Definition goes_first (priority : str -> Z) (names : list str) (a b : origin) : Prop :=
  (priority (field_of_origin b) < priority (field_of_origin a))%Z \/
  priority (field_of_origin a) = priority (field_of_origin b) /\
  (comes_before (of_element a) (of_element b) \/
   of_element a = of_element b /\
   (number_before (number_of a) (number_of b) \/
    number_of a = number_of b /\ (field_of_origin a = field_of_origin b \/ listed_before names (field_of_origin a) (field_of_origin b)))).
(** the priority of a field of the options [m] *)
Definition priority_in (parse_int : str -> option Z) (m : options) (k : str) : Z :=
  match option_of m k ".priority" with Some s => match parse_int s with Some p => p | None => 0%Z end | None => 0%Z end.

(* ---------------------------------------------------------------- *)
(** ** Stable sorting *)
Lemma stable_insert {A} (leb : A -> A -> bool) (Q : A -> A -> Prop) : (forall a b, leb a b = false -> leb b a = true) -> (forall a b c, leb a b = true -> leb b c = true -> leb a c = true) ->
  forall x l, Forall (Q x) l -> StronglySorted (fun a b => leb a b = true /\ (leb b a = true -> Q a b)) l ->
  StronglySorted (fun a b => leb a b = true /\ (leb b a = true -> Q a b)) (insert leb x l).
Proof.
  intros Htot Htr x l HQ S. induction S as [|y l S IH F]; cbn [insert]; [repeat constructor|]. inversion HQ as [|? ? Q1 Q2]; subst. destruct (leb x y) eqn:E.
  - constructor; [now constructor|]. constructor; [now split|]. rewrite Forall_forall in *. intros z Hz. split; [eapply Htr; [exact E|now apply F]|intros _; now apply Q2].
  - constructor; [now apply IH|]. apply (Permutation_Forall (Permutation_sym (insert_perm leb x l))). constructor; [|exact F]. split; [now apply Htot|congruence].
Qed.
Lemma stable_sort {A} (leb : A -> A -> bool) (Q : A -> A -> Prop) : (forall a b, leb a b = false -> leb b a = true) -> (forall a b c, leb a b = true -> leb b c = true -> leb a c = true) ->
  forall l, StronglySorted Q l -> StronglySorted (fun a b => leb a b = true /\ (leb b a = true -> Q a b)) (sort leb l).
Proof.
  intros Htot Htr l S. induction S as [|x l S IH F]; [constructor|]. change (sort leb (x :: l)) with (insert leb x (sort leb l)).
  apply stable_insert; [exact Htot|exact Htr| |exact IH]. exact (Permutation_Forall (Permutation_sym (sort_perm leb l)) F).
Qed.
Lemma sorted_all {A} (R : A -> A -> Prop) l : (forall a b, In a l -> In b l -> R a b) -> StronglySorted R l.
Proof. induction l as [|x l IH]; intros H; constructor; [apply IH; intros; apply H; now right|]. apply Forall_forall. intros y Hy. apply H; [now left|now right]. Qed.
Lemma forall_choice {A B} (R : A -> B -> Prop) l : (forall x, In x l -> exists y, R x y) -> exists l', Forall2 R l l'.
Proof.
  induction l as [|x l IH]; intros H; [exists []; constructor|]. destruct (H x (or_introl eq_refl)) as (y & Hy). destruct IH as (l' & Hl); [intros; apply H; now right|]. exists (y :: l'). now constructor.
Qed.
Lemma sorted_transfer {A B} (R : A -> A -> Prop) (S : B -> B -> Prop) (P : A -> B -> Prop) : (forall a a' b b', P a b -> P a' b' -> R a a' -> S b b') ->
  forall l l', Forall2 P l l' -> StronglySorted R l -> StronglySorted S l'.
Proof.
  intros H l l' F. induction F as [|a b l l' Hab F IH]; intros SS; [constructor|]. inversion SS as [|? ? S1 S2]; subst. constructor; [now apply IH|].
  clear IH SS S1. induction F as [|a' b' l l' Hab' F IH]; constructor; inversion S2; subst; [eapply H; eassumption|now apply IH].
Qed.

(* ---------------------------------------------------------------- *)
(** ** Any mapping *)
Section Order.
Variables sp wd dg : N -> bool.
Variable lower : str -> str.
Variable compiles : str -> bool.
Variable parse_int : str -> option Z.
Variable show_int : Z -> str.
Variable json_concat : str -> res (list (list source)).
Variable json_range : str -> res (list range_item).
Variable re_group : str -> str -> option ostr.
Variable re_spans : str -> str -> list (Z * Z).
Variable xpath : npath -> str -> res (list npath).
Variable content_excluding : list npath -> npath -> str.
Variable root : node.
Let T := xml_targets sp wd dg lower compiles parse_int show_int json_concat json_range re_group re_spans xpath content_excluding root.
(** C125: every annotation comes from an element that the expressions of its field find, and the
    annotations are ordered by priority, document order, number, and the order of the fields. *)
Theorem C125_order : forall xm tag l m, T xm tag = Ok l -> dict_get tag xm = Some m -> NoDup (map fst m) ->
  (forall k es e, In k (map fst m) -> plain_name k -> found_by xpath (parse_xpaths sp (dict_get k m)) [] es -> In e es -> node_at root e <> None) ->
  exists tr, map snd tr = l /\
    Forall (fun x : origin => In (field_of_origin x) (map fst m) /\ plain_name (field_of_origin x) /\
      exists es, found_by xpath (parse_xpaths sp (dict_get (field_of_origin x) m)) [] es /\ In (of_element x) es) tr /\
    StronglySorted (goes_first (priority_in parse_int m) (map fst m)) tr.
Proof.
  intros xm tag l m HT Hm Hnd Hreal. apply targets_inv in HT as (m' & ls & Hm' & HF & ->). assert (m' = m) as -> by congruence. clear Hm'.
  set (lek := fun a b : key * tgt => key_leb (fst a) (fst b)).
  set (P := fun (y : key * tgt) (x : origin) => snd x = snd y /\ In (field_of_origin x) (map fst m) /\ plain_name (field_of_origin x) /\
     (exists es, found_by xpath (parse_xpaths sp (dict_get (field_of_origin x) m)) [] es /\ In (of_element x) es) /\ node_at root (of_element x) <> None /\
     fst y = ((- priority_in parse_int m (field_of_origin x))%Z, Z.of_nat (index_of (of_element x) (paths_from [] root)), number_of x)).
  assert (HP : forall k es, In k (field_names m) -> field_entries sp wd dg lower compiles parse_int show_int json_concat json_range re_group re_spans xpath content_excluding root m k = Ok es ->
     forall y, In y es -> tg_name (snd y) = k /\ exists x, P y x).
  { intros k es Hk E [kk t] Hy. apply fents_inv in E as (f & els & xs & Hf & Hfound & HF2 & ->). apply in_concat in Hy as (y & Hy1 & Hy2). destruct (F2_in_r _ _ _ HF2 y Hy1) as (e & He & E).
    assert (Hn : tg_name t = k) by (eapply ents_in; [exact E|exact Hy2]). split; [exact Hn|]. edestruct ents_keys as (i & Ki); [exact E|exact Hy2|]. cbn [fst snd] in *.
    apply conf_fields in Hf as (Hxp & _ & _ & _ & _ & Hpr & _). rewrite Hxp in Hfound. apply field_names_spec in Hk as [Hk Pk].
    exists (e, i, t). unfold P, field_of_origin, of_element, number_of. cbn [fst snd]. rewrite Hn. split; [reflexivity|]. split; [exact Hk|]. split; [exact Pk|]. split; [exists els; now split|].
    split; [exact (Hreal k els e Hk Pk Hfound He)|]. rewrite Ki. unfold priority_in. destruct (option_of m k ".priority") as [s|]; rewrite Hpr; reflexivity. }
  set (Q := fun a b : key * tgt => tg_name (snd a) = tg_name (snd b) \/ listed_before (map fst m) (tg_name (snd a)) (tg_name (snd b))).
  assert (SQ : StronglySorted Q (concat ls)).
  { assert (S0 : forall pre names ls, field_names m = pre ++ names -> Forall2 (fun k es => field_entries sp wd dg lower compiles parse_int show_int json_concat json_range re_group re_spans xpath content_excluding root m k = Ok es) names ls ->
       StronglySorted Q (concat ls)).
    { clear HF ls. intros pre names ls E HF. revert pre E. induction HF as [|k es names ls He HF IH]; intros pre E; [constructor|]. cbn [concat].
      assert (Hk : In k (field_names m)) by (rewrite E; apply in_or_app; right; now left). apply sorted_app.
      - apply sorted_all. intros a b Ha Hb. left. rewrite (proj1 (HP k es Hk He a Ha)), (proj1 (HP k es Hk He b Hb)). reflexivity.
      - apply (IH (pre ++ [k])). now rewrite <- app_assoc.
      - intros a b Ha Hb. right. rewrite (proj1 (HP k es Hk He a Ha)). apply in_concat in Hb as (es' & Hes' & Hb). destruct (F2_in_r _ _ _ HF es' Hes') as (k' & Hk' & He').
        assert (Hk'' : In k' (field_names m)) by (rewrite E; apply in_or_app; right; now right). rewrite (proj1 (HP k' es' Hk'' He' b Hb)).
        apply in_split in Hk' as (n1 & n2 & ->). clear - E. unfold field_names in E. revert E. generalize (map fst m). intros nm E.
        assert (G : forall (p : str -> bool) (l a : list str) x b, filter p l = a ++ x :: b -> exists l1 l2, l = l1 ++ x :: l2 /\ filter p l2 = b).
        { clear. intros p. induction l as [|y l IH]; intros a x b; cbn [filter]; [now destruct a|]. destruct (p y) eqn:Ey.
          - destruct a as [|z a]; cbn [app]; intros [= <- H].
            + now exists [], l.
            + destruct (IH _ _ _ H) as (l1 & l2 & -> & H2). now exists (y :: l1), l2.
          - intros H. destruct (IH _ _ _ H) as (l1 & l2 & -> & H2). now exists (y :: l1), l2. }
        destruct (G _ _ _ _ _ E) as (l1 & l2 & -> & E2). destruct (G _ _ _ _ _ E2) as (l3 & l4 & -> & _). now exists l1, l3, l4. }
    exact (S0 [] _ _ eq_refl HF). }
  assert (HPall : forall y, In y (concat ls) -> exists x, P y x).
  { intros y Hy. apply in_concat in Hy as (es & Hes & Hy). destruct (F2_in_r _ _ _ HF es Hes) as (k & Hk & E). exact (proj2 (HP k es Hk E y Hy)). }
  assert (SS := stable_sort lek Q). specialize (SS ltac:(intros a b; unfold lek; intros H; destruct (key_total (fst a) (fst b)) as [G|G]; [congruence|exact G]) ltac:(intros a b c; unfold lek; apply key_trans) _ SQ).
  destruct (forall_choice P (sort lek (concat ls))) as (tr & Htr).
  { intros y Hy. apply HPall. exact (Permutation_in _ (sort_perm lek (concat ls)) Hy). }
  exists tr. split; [|split].
  - clear - Htr. induction Htr as [|y x l tr H F IH]; [reflexivity|]. cbn [map]. f_equal; [exact (proj1 H)|exact IH].
  - clear - Htr. induction Htr as [|y x l tr (H0 & H1 & H2 & H3 & _) F IH]; constructor; [|exact IH]. now repeat split.
  - eapply (sorted_transfer _ _ P); [|exact Htr|exact SS]. clear. intros y y' x x' (T1 & _ & _ & _ & R1 & K1) (T2 & _ & _ & _ & R2 & K2) [L1 L2].
    unfold lek, key_leb in L1, L2. rewrite K1, K2 in L1, L2. unfold Q in L2. rewrite <- T1, <- T2 in L2. fold (field_of_origin x) in L2. fold (field_of_origin x') in L2.
    unfold goes_first. set (p := priority_in parse_int m (field_of_origin x)) in *. set (p' := priority_in parse_int m (field_of_origin x')) in *.
    destruct (Z.lt_ge_cases p' p) as [G|G]; [now left|]. right.
    assert (p = p') as E by (clear L2; lia). split; [exact E|]. rewrite <- E in L1, L2. rewrite !Z.ltb_irrefl, !Z.eqb_refl in L1, L2. cbn [orb andb] in L1, L2.
    destruct (Z.ltb_spec (Z.of_nat (index_of (of_element x) (paths_from [] root))) (Z.of_nat (index_of (of_element x') (paths_from [] root)))) as [G1|G1].
    { left. apply (C88_positions root); [exact R1|exact R2|lia]. }
    right. cbn [orb] in L1. apply andb_true_iff in L1 as [L0 L1]. apply Z.eqb_eq in L0. rewrite L0 in L2. rewrite Z.ltb_irrefl, Z.eqb_refl in L2. cbn [orb andb] in L2.
    split; [apply (C88_positions_differ root); [exact R1|exact R2|lia]|].
    unfold number_before. destruct (number_of x) as [i|], (number_of x') as [j|]; cbn [optz_leb] in L1, L2; [|discriminate|now left|right; split; [reflexivity|now apply L2]].
    destruct (Z.lt_ge_cases i j) as [G2|G2]; [now left|]. right. assert (i = j) by lia. split; [now f_equal|apply L2; lia].
Qed.
End Order.

(* ---------------------------------------------------------------- *)
(** ** The mapping of the repository *)
Definition shown_first : list string := ["figure"; "body_figure"; "back_figure"; "table"; "body_table"; "back_table"]%string.
Definition article_priority (k : str) : Z := if mem k (map u shown_first) then 1%Z else 0%Z.
Definition article_fields : list str := map (fun kc => u (fst kc)) field_paths.
Lemma article_priorities b k : lb_int b (u "1") = Some 1%Z -> In k article_fields -> priority_in (lb_int b) article k = article_priority k.
Proof.
  intros H1 Hk.
  assert (E : forallb (fun k => if mem k (map u shown_first) then ostreq (option_of article k ".priority") (Some (u "1")) else ostreq (option_of article k ".priority") None) article_fields = true) by (vm_compute; reflexivity).
  rewrite forallb_forall in E. specialize (E k Hk). unfold priority_in, article_priority. destruct (mem k (map u shown_first)); apply ostreq_true in E; rewrite E; [now rewrite H1|reflexivity].
Qed.
Lemma listed_filter (p : str -> bool) l k k' : listed_before l k k' -> p k = true -> p k' = true -> listed_before (filter p l) k k'.
Proof.
  intros (l1 & l2 & l3 & ->) H H'. exists (filter p l1), (filter p l2), (filter p l3). rewrite filter_app. cbn [filter]. rewrite H, filter_app. cbn [filter]. now rewrite H'.
Qed.
Lemma listed_unfilter {A} (p : str * A -> bool) l k k' : listed_before (map fst (filter p l)) k k' -> listed_before (map fst l) k k'.
Proof.
  intros (l1 & l2 & l3 & E).
  assert (G : forall (l : list (str * A)) a x b, map fst (filter p l) = a ++ x :: b -> exists l1 l2, map fst l = l1 ++ x :: map fst l2 /\ map fst (filter p l2) = b).
  { clear. induction l as [|y l IH]; intros a x b; cbn [filter map]; [now destruct a|]. destruct (p y).
    - cbn [map]. destruct a as [|z a]; cbn [app]; intros H; injection H as H0 H.
      + exists [], l. now rewrite H0.
      + destruct (IH _ _ _ H) as (m1 & m2 & H1 & H2). exists (fst y :: m1), m2. now rewrite H1.
    - intros H. destruct (IH _ _ _ H) as (m1 & m2 & H1 & H2). exists (fst y :: m1), m2. now rewrite H1. }
  destruct (G _ _ _ _ E) as (m1 & m2 & E1 & E2). destruct (G _ _ _ _ E2) as (m3 & m4 & E3 & _). exists m1, m3, (map fst m4). now rewrite E1, E3.
Qed.
Lemma one_inj {A B} (a : A) (x y : B) : [(a, x)] = [(a, y)] -> x = y.
Proof. now intros [= ->]. Qed.
(** C125: all annotations that a command makes of an article: each is of one of the 36 fields, asked for if
    fields are given, and comes from an element at the place of that field; figures and tables come first,
    otherwise they are in document order, and in the order of the fields for the same element. *)
Theorem C125_article : forall b rd excl root cmd o l,
  (exists a t cs tl, root = Elem (u "article") a t cs tl) -> usual_texts b rd -> o_overrides o = [] ->
  targets_of b (with_texts rd) (fst (command_fields cmd [(u "article", article)] o)) (article_doc excl root) = Ok l ->
  exists tr, map snd tr = l /\
    Forall (fun x : origin => exists k cond t, In (k, cond) field_paths /\ field_of_origin x = u k /\ (o_fields o = [] \/ In (u k) (o_fields o)) /\
      trail root (of_element x) = Some t /\ cond t) tr /\
    StronglySorted (goes_first article_priority article_fields) tr.
Proof.
  intros b rd excl root cmd o l Hroot Hu Ho HT.
  assert (Hroot' : exists n a t cs tl, root = Elem n a t cs tl) by (destruct Hroot as (a & t & cs' & tl & E); now exists (u "article"), a, t, cs', tl).
  rewrite (command_keeps cmd o (u "article") article Ho) in HT. set (m := filter (fun kv => kept_by cmd o (fst kv)) article) in HT.
  assert (NDm : NoDup (map fst m)).
  { subst m. assert (E : forall A (l : list (str * A)), NoDup (map fst l) -> NoDup (map fst (filter (fun kv => kept_by cmd o (fst kv)) l))).
    { clear. intros A l. induction l as [|[k v] l IH]; cbn [map filter fst]; [auto|]. intros H. inversion H as [|? ? H1 H2]; subst. destruct (kept_by cmd o k); [|now apply IH]. cbn [map fst]. constructor; [|now apply IH].
      intros N. apply H1. apply in_map_iff in N as ([k' v'] & E & N). cbn in E. subst k'. apply filter_In in N as [N _]. apply in_map_iff. now exists (k, v'). }
    apply E. exact (proj1 (proj2 (C99_mapping _ _ (fun _ _ => eq_refl) (fun _ _ => eq_refl)))). }
  assert (Hnames : forall k, In k (map fst m) -> plain_name k -> In k article_fields /\ (o_fields o = [] \/ In k (o_fields o)) /\ reduced_to m k).
  { intros k Hk Pk. assert (Ha : In k (map fst article)).
    { apply in_map_iff in Hk as ([k' v] & E & Hin). cbn in E. subst k'. apply filter_In in Hin as [Hin _]. apply in_map_iff. now exists (k, v). }
    assert (Hf : o_fields o = [] \/ In k (o_fields o)).
    { apply in_map_iff in Hk as ([k' v] & E & Hin). cbn in E. subst k'. apply filter_In in Hin as [_ Hin]. cbn [fst] in Hin. unfold kept_by in Hin. apply andb_true_iff in Hin as [Hin _]. destruct (o_fields o) as [|f fs]; [now left|]. right.
      apply mem_In in Hin. assert (E : field_name k = k) by (apply field_name_spec; [exact Pk|now left]). now rewrite E in Hin. }
    assert (Hin : In k article_fields) by (unfold article_fields; rewrite C115_all; now apply field_names_spec). split; [exact Hin|]. split; [exact Hf|].
    apply in_map_iff in Hin as ([ks cond] & <- & Hin). cbn [fst] in *. destruct (command_reduced cmd o ks Pk Ho Hf) as (m0 & Hm0 & E0). rewrite (command_keeps cmd o (u "article") article Ho) in E0. fold m in E0. apply one_inj in E0. rewrite E0. exact Hm0. }
  destruct Hu as (Hsp & Hlow & _ & H1 & _). unfold targets_of in HT. destruct Hroot as (ra & rt & rcs & rtl & Er).
  assert (Etag : td_tag (article_doc excl root) = u "article") by (rewrite Er; reflexivity). rewrite Etag in HT.
  change (td_xpath (article_doc excl root)) with (xpath_at root) in HT. change (td_root (article_doc excl root)) with (erase root) in HT. change (td_excluding (article_doc excl root)) with (excl root) in HT.
  assert (Hfound : forall k es e, In k (map fst m) -> plain_name k -> found_by (xpath_at root) (parse_xpaths (lb_sp b) (dict_get k m)) [] es -> In e es ->
     exists ks cond t, In (ks, cond) field_paths /\ k = u ks /\ (o_fields o = [] \/ In k (o_fields o)) /\ trail root e = Some t /\ cond t).
  { intros k es e Hk Pk Hes He. destruct (Hnames k Hk Pk) as (Hin & Hf & Hm). apply in_map_iff in Hin as ([ks cond] & <- & Hin). cbn [fst] in *. rewrite (kept_self m _ Hm) in Hes. apply all_xpaths_spec in Hes.
    destruct (C115_fields (lb_sp b) root ks cond Hsp Hroot' Hin) as (found & E & _ & Infound). rewrite E in Hes. injection Hes as <-. apply Infound in He as (t & Ht & Hc). exists ks, cond, t. now repeat split. }
  edestruct (fun sp wd dg lower compiles pi si jc jr rg rs xp ce r => C125_order sp wd dg lower compiles pi si jc jr rg rs xp ce r [(u "article", m)] (u "article") l m) as (tr & T1 & T2 & T3); [exact HT|reflexivity|exact NDm| |].
  { intros k es e Hk Pk Hes He. destruct (Hfound k es e Hk Pk Hes He) as (ks & cond & t & _ & _ & _ & Ht & _). exact (trail_erased _ _ _ Ht). }
  exists tr. split; [exact T1|].
  assert (T2' : Forall (fun x : origin => In (field_of_origin x) (map fst m) /\ plain_name (field_of_origin x)) tr) by (eapply Forall_impl; [|exact T2]; intros x (A & B & _); now split).
  split.
  - eapply Forall_impl; [|exact T2]. cbv beta. intros x (Hk & Pk & es & Hes & He). destruct (Hfound _ es _ Hk Pk Hes He) as (ks & cond & t & F1 & F2 & F3 & F4 & F5). exists ks, cond, t. rewrite F2 in F3. now repeat split.
  - assert (Pr : forall k, In k (map fst m) -> plain_name k -> priority_in (lb_int b) m k = article_priority k).
    { intros k Hk Pk. destruct (Hnames k Hk Pk) as (Hin & _ & Hm). rewrite <- (article_priorities b k H1 Hin). unfold priority_in. now rewrite (kept_option m k ".priority" Hm eq_refl). }
    clear - T3 T2' Pr m. induction T3 as [|x tr S IH F]; [constructor|]. inversion T2' as [|? ? [A B] T2]; subst. constructor; [now apply IH|]. rewrite Forall_forall in F, T2. apply Forall_forall. intros y Hy.
    destruct (T2 y Hy) as [A' B']. specialize (F y Hy). unfold goes_first in *. rewrite (Pr _ A B), (Pr _ A' B') in F. destruct F as [F|[F0 F]]; [now left|right]. split; [exact F0|]. destruct F as [F|[F1 F]]; [now left|right]. split; [exact F1|].
    destruct F as [F|[F2 F]]; [now left|right]. split; [exact F2|]. destruct F as [F|F]; [now left|right].
    unfold article_fields. rewrite C115_all. unfold field_names. apply listed_filter; [exact (listed_unfilter _ _ _ _ F)| |]; apply negb_true_iff, has_false; assumption.
Qed.

(* ---------------------------------------------------------------- *)
(** ** Examples *)
Definition order_article : xml :=
  el "article" [el "front" [el "article-meta" [el "title-group" [tx "article-title" "Stones"]; tx "fpage" "7"; tx "lpage" "9"]];
    el "body" [el "sec" [tx "title" "Shores"; tx "p" "some sand"; el "fig" [tx "label" "Fig 1"; el "caption" [tx "p" "a shell"]]];
               el "table-wrap" [tx "label" "Table 1"]]].
Definition order_targets (fields : list str) : res (list tgt) :=
  targets_of real_libs (with_texts ship_readers) (fst (command_fields CSegmentation [(u "article", article)] (PropSaves.ex_opts fields))) (article_doc (fun _ _ _ => []) order_article).
Example C125_ex_order : exists l, order_targets [] = Ok l /\
  map (fun t => (tg_name t, tg_value t)) l = map (fun x => (u (fst x), VOne (u (snd x))))
    [("figure", "Fig 1 a shell"); ("body_figure", "Fig 1 a shell"); ("table", "Table 1"); ("body_table", "Table 1");
     ("page_no", "7"); ("page_no", "8"); ("page_no", "9"); ("title", "Stones"); ("section_title", "Shores"); ("body_section_title", "Shores");
     ("section_paragraph", "some sand"); ("body_section_paragraph", "some sand"); ("body_section_paragraph", "a shell")]%string.
Proof. eexists. split; vm_compute; reflexivity. Qed.
Print Assumptions C125_order.
Print Assumptions C125_article.
