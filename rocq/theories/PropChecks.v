(** C40: quality checks. *)
From Coq Require Import Sorted Permutation.
From Verif Require Import PropTeiRead Base ModelTags ModelTei ModelTeiDoc ModelJoined ModelClusters ModelTarget ModelMapping ModelChecks PropClusters PropTarget PropMapping.

(** ** Entities *)
(** a token has a value if its tag without prefix is not empty *)
Definition value_of (t : tok) : ostr := strip_tag_prefix (get_tag LMain t).
Definition tagged (t : tok) : bool := truthy (value_of t).
Definition starts_entity (t : tok) : bool := is_b (fst (split_tag_prefix (get_tag LMain t))).
(** the document as untagged tokens and maximal groups of the same value; a token with
    the begin prefix starts a group *)
Inductive segmented : list tok -> list (str * list tok) -> Prop :=
| Seg_nil : segmented [] []
| Seg_skip t l gs : tagged t = false -> segmented l gs -> segmented (t :: l) gs
| Seg_group v t g l gs :
    v <> [] -> value_of t = Some v ->
    Forall (fun x => value_of x = Some v /\ starts_entity x = false) g ->
    match l with [] => True | x :: _ => value_of x <> Some v \/ starts_entity x = true end ->
    segmented l gs -> segmented (t :: g ++ l) ((v, t :: g) :: gs).

Lemma split_value t p v : split_tag_prefix (get_tag LMain t) = (p, v) -> value_of t = v /\ starts_entity t = is_b p.
Proof. intros H. unfold value_of, starts_entity, strip_tag_prefix. now rewrite H. Qed.
Lemma groups_segmented toks :
  segmented toks (entity_groups None toks)
  /\ forall v t g, v <> [] -> value_of t = Some v -> Forall (fun x => value_of x = Some v /\ starts_entity x = false) g ->
       segmented (t :: g ++ toks) (entity_groups (Some (v, t :: g)) toks).
Proof.
  induction toks as [|x toks [IH1 IH2]].
  - split; [constructor|]. intros v t g Hv Ht Hg. cbn [entity_groups]. apply Seg_group; auto. constructor.
  - cbn [entity_groups]. destruct (split_tag_prefix (get_tag LMain x)) as [p w] eqn:E. apply split_value in E as [E1 E2].
    assert (G0 : segmented (x :: toks) (match w with Some (c :: w') => entity_groups (Some (c :: w', [] ++ [x])) toks | _ => entity_groups None toks end)).
    { destruct w as [[|c w]|].
      - apply Seg_skip; [unfold tagged; now rewrite E1 | exact IH1].
      - apply (IH2 (c :: w) x []); [easy | exact E1 | constructor].
      - apply Seg_skip; [unfold tagged; now rewrite E1 | exact IH1]. }
    split; [exact G0|]. intros v t g Hv Ht Hg. match goal with |- context [if ?b then [_] else []] => destruct b eqn:F end.
    + cbn [app]. apply Seg_group; [exact Hv | exact Ht | exact Hg | | exact G0]. apply orb_true_iff in F as [F|F]; [left | right; congruence].
      apply negb_true_iff, ostreq_false in F. intros Q. apply F. rewrite <- E1. now symmetry.
    + apply orb_false_iff in F as [F1 F2]. apply negb_false_iff, ostreq_true in F1. subst w. destruct v as [|c v]; [easy|]. cbn [app].
      change ((t :: g) ++ [x]) with (t :: (g ++ [x])).
      replace (t :: g ++ x :: toks) with (t :: (g ++ [x]) ++ toks) by (now rewrite <- app_assoc).
      rewrite <- F1. apply (IH2 (c :: v) t (g ++ [x])); [exact Hv | exact Ht |]. apply Forall_app. split; [exact Hg|]. constructor; [|constructor]. split; [now symmetry | congruence].
Qed.
Theorem C40_entities sp d : exists gs, segmented (all_tokens sp d) gs /\ entities sp d = map (fun g => (fst g, token_text (snd g))) gs.
Proof. exists (entity_groups None (all_tokens sp d)). split; [apply groups_segmented | reflexivity]. Qed.
(** consequences: every tagged token is in exactly one group, in document order *)
Theorem C40_all_tokens sp d gs : segmented (all_tokens sp d) gs -> flat_map snd gs = filter tagged (all_tokens sp d).
Proof.
  generalize (all_tokens sp d). intros toks H. induction H as [|t l gs Ht H IH|v t g l gs Hv Ht Hg Hl H IH]; [reflexivity| |].
  - cbn [filter]. rewrite Ht. exact IH.
  - cbn [flat_map snd filter app]. assert (T : forall x, value_of x = Some v -> tagged x = true) by (intros x Hx; unfold tagged; rewrite Hx; destruct v; easy).
    rewrite (T t Ht). rewrite filter_app, IH. f_equal. f_equal.
    clear - Hg T. induction Hg as [|x g [Hx _] Hg IH]; [reflexivity|]. cbn [filter]. rewrite (T x Hx). now f_equal.
Qed.
(** the tokens the entities are made of: those of all lines in order, without those of spaces only *)
Inductive words_of (sp : N -> bool) : list tok -> list tok -> Prop :=
| Words_nil : words_of sp [] []
| Words_space t l ws : Forall (fun c => sp c = true) (tx t) -> words_of sp l ws -> words_of sp (t :: l) ws
| Words_word t l ws : Exists (fun c => sp c = false) (tx t) -> words_of sp l ws -> words_of sp (t :: l) (t :: ws).
Theorem C40_words sp d : exists ws gs, words_of sp (concat d) ws /\ segmented ws gs /\ flat_map snd gs = filter tagged ws /\
  map fst (entities sp d) = map fst gs.
Proof.
  exists (all_tokens sp d). exists (entity_groups None (all_tokens sp d)).
  assert (G : segmented (all_tokens sp d) (entity_groups None (all_tokens sp d))) by apply groups_segmented.
  split; [|split; [exact G|split; [now apply C40_all_tokens|]]].
  - unfold all_tokens. generalize (concat d). intros l. induction l as [|t l IH]; [constructor|]. cbn [filter]. unfold is_space, blank in *.
    destruct (forallb sp (tx t)) eqn:E; cbn [negb].
    + apply Words_space; [|exact IH]. apply Forall_forall. now apply forallb_forall.
    + apply Words_word; [|exact IH]. clear -E. induction (tx t) as [|c s IH]; [discriminate|]. cbn in E. destruct (sp c) eqn:Ec; [right; now apply IH|now left].
  - unfold entities. rewrite map_map. reflexivity.
Qed.
(** the segmentation is determined by the document *)
Theorem C40_segmented_unique toks gs : segmented toks gs -> forall gs', segmented toks gs' -> gs = gs'.
Proof.
  induction 1 as [|t l gs Ht H IH|v t g l gs Hv Ht Hg Hl H IH]; intros gs' H'.
  - inversion H'. reflexivity.
  - inversion H' as [|? ? ? Ht' H1|v' ? g' l' gs0 Hv' Ht' Hg' Hl' H1]; subst; [now apply IH|].
    exfalso. unfold tagged in Ht. rewrite Ht' in Ht. destruct v'; easy.
  - inversion H' as [|? ? ? Ht' H1|v' ? g' l' gs0 Hv' Ht' Hg' Hl' HS]; subst.
    + exfalso. unfold tagged in Ht'. rewrite Ht in Ht'. destruct v; easy.
    + rewrite Ht in Ht'. injection Ht' as <-. assert (Q : g = g' /\ l = l').
      { match goal with Q : g' ++ l' = g ++ l |- _ => symmetry in Q; revert Q end. clear - Hg Hg' Hl Hl'. intros H1. revert g' Hg' H1. induction Hg as [|x g [Hx Hx'] Hg IH]; intros g' Hg' E.
        - destruct g' as [|y g']; [cbn in E; auto|]. cbn in E. subst l. inversion Hg' as [|? ? [Hy Hy'] _]; subst. exfalso. destruct Hl; congruence.
        - destruct g' as [|y g']; cbn in E.
          + subst l'. exfalso. destruct Hl'; congruence.
          + injection E as -> E. inversion Hg'; subst. destruct (IH g' ltac:(assumption) E) as [-> ->]. easy. }
      destruct Q as [<- <-]. f_equal. now apply IH.
Qed.

(** ** Grouping by name *)
Lemma str_total a b : str_leb a b = true \/ str_leb b a = true.
Proof.
  revert b; induction a as [|x a IH]; intros [|y b]; cbn [str_leb]; auto. destruct (IH b) as [H|H]; rewrite H.
  - destruct (N.lt_trichotomy x y) as [L|[->|L]]; [left; apply N.ltb_lt in L; now rewrite L | left; rewrite N.eqb_refl; now rewrite orb_true_r | right; apply N.ltb_lt in L; now rewrite L].
  - destruct (N.lt_trichotomy x y) as [L|[->|L]]; [left; apply N.ltb_lt in L; now rewrite L | right; rewrite N.eqb_refl; now rewrite orb_true_r | right; apply N.ltb_lt in L; now rewrite L].
Qed.
Lemma str_cons x a y b : str_leb (x :: a) (y :: b) = true <-> (x < y)%N \/ x = y /\ str_leb a b = true.
Proof. cbn [str_leb]. rewrite orb_true_iff, andb_true_iff, N.ltb_lt, N.eqb_eq. reflexivity. Qed.
Lemma str_trans a : forall b c, str_leb a b = true -> str_leb b c = true -> str_leb a c = true.
Proof.
  induction a as [|x a IH]; intros [|y b] [|z c] H1 H2; try reflexivity; try discriminate.
  apply str_cons in H1, H2. apply str_cons. destruct H1 as [H1|[-> H1]], H2 as [H2|[-> H2]]; [left; lia | now left | now left |].
  right. split; [reflexivity|]. eapply IH; eauto.
Qed.
Lemma str_antisym a : forall b, str_leb a b = true -> str_leb b a = true -> a = b.
Proof.
  induction a as [|x a IH]; intros [|y b] H1 H2; try reflexivity; try discriminate.
  apply str_cons in H1, H2. destruct H1 as [H1|[-> H1]], H2 as [H2|[E H2]]; try lia. f_equal. now apply IH.
Qed.
Definition named {A} (k : str) (l : list (str * A)) : list A := map snd (filter (fun x => streq k (fst x)) l).
Lemma group_keys {A} (l : list (str * A)) : forall k, In k (map fst (group_consecutive l)) <-> In k (map fst l).
Proof.
  induction l as [|[k0 a] l IH]; intros k; [reflexivity|]. cbn [group_consecutive map fst]. destruct (group_consecutive l) as [|[k' g] r] eqn:E.
  - cbn [map fst] in *. specialize (IH k). cbn in *. intuition.
  - destruct (streq k0 k') eqn:F; cbn [map fst] in *.
    + apply streq_true in F. subst k'. specialize (IH k). cbn in *. intuition.
    + specialize (IH k). cbn in *. intuition.
Qed.
Lemma group_spec {A} (l : list (str * A)) : StronglySorted (fun a b => str_leb (fst a) (fst b) = true) l ->
  NoDup (map fst (group_consecutive l)) /\ (forall k, dict_get k (group_consecutive l) = match named k l with [] => None | g => Some g end)
  /\ (match l, group_consecutive l with x :: _, g :: _ => fst g = fst x | [], [] => True | _, _ => False end).
Proof.
  intros H. induction H as [|[k0 a] l H IH Hf]; [split; [constructor | split; [reflexivity | exact I]]|].
  destruct IH as (I1 & I2 & I3). assert (K : forall k', group_consecutive l <> [] -> fst (hd (k', []) (group_consecutive l)) <> k0 -> ~ In k0 (map fst l)).
  { intros k' Hne Hk F. destruct l as [|[k1 b] l]; [easy|]. destruct (group_consecutive ((k1, b) :: l)) as [|[k2 g] r]; [easy|]. cbn [fst hd] in *. subst k2.
    destruct F as [F|F]; [now apply Hk|]. apply in_map_iff in F as ([k3 c] & F1 & F2). cbn in F1. subst k3.
    inversion H as [|? ? _ Hf']; subst. rewrite Forall_forall in Hf, Hf'. apply Hk. apply str_antisym; [apply (Hf' _ F2) | apply (Hf (k1, b)); now left]. }
  cbn [group_consecutive]. destruct (group_consecutive l) as [|[k' g] r] eqn:E.
  - destruct l as [|y l]; [|rewrite E in I3; now destruct I3]. split; [repeat constructor; easy|]. split; [|reflexivity]. intros k. cbn [dict_get named filter map snd fst]. unfold named. cbn [filter fst].
    destruct (streq k k0); reflexivity.
  - destruct (streq k0 k') eqn:F.
    + apply streq_true in F. subst k'. split; [exact I1|]. split; [|reflexivity]. intros k. specialize (I2 k). cbn [dict_get] in *. unfold named in *. cbn [filter fst].
      destruct (streq k k0) eqn:G; [|exact I2]. cbn [map snd]. destruct (map snd (filter _ l)) as [|h hs]; [discriminate|]. injection I2 as ->. reflexivity.
    + apply streq_false in F. assert (N : ~ In k0 (map fst l)) by (apply (K k'); [easy | cbn; congruence]). split; [|split; [|reflexivity]].
      * cbn [map fst]. constructor; [|exact I1]. intros Q. apply N. apply group_keys. rewrite E. exact Q.
      * intros k. specialize (I2 k). unfold named in *. cbn [filter fst]. change (dict_get k ((k0, [a]) :: (k', g) :: r)) with (if streq k k0 then Some [a] else dict_get k ((k', g) :: r)).
        destruct (streq k k0) eqn:G; [|exact I2]. apply streq_true in G. subst k. cbn [map snd].
        assert (Z : filter (fun x : str * A => streq k0 (fst x)) l = []).
        { clear - N. induction l as [|[k b] l IH]; [reflexivity|]. cbn [filter fst]. replace (streq k0 k) with false; [apply IH; intros Q; apply N; now right|].
          symmetry. apply streq_false. intros ->. apply N. now left. }
        rewrite Z. reflexivity.
Qed.
Lemma grouped_spec {A} (l : list (str * A)) k :
  dict_get k (grouped l) = match named k l with [] => None | g => Some g end.
Proof.
  unfold grouped. assert (S : StronglySorted (fun a b : str * A => str_leb (fst a) (fst b) = true) (sort (fun a b => str_leb (fst a) (fst b)) l)).
  { apply sort_sorted; intros; [apply str_total | eapply str_trans; eassumption]. }
  pose proof (group_spec _ S) as (G1 & G2 & _). rewrite dict_update_get. cbn [dict_get].
  assert (R : dict_get k (rev (group_consecutive (sort (fun a b => str_leb (fst a) (fst b)) l))) = dict_get k (group_consecutive (sort (fun a b => str_leb (fst a) (fst b)) l))).
  { set (g := group_consecutive _) in *. clearbody g. destruct (dict_get k g) as [v|] eqn:E.
    - apply dict_get_nodup in E; [|exact G1]. apply dict_get_nodup; [now apply NoDup_rev_fst | now apply -> in_rev].
    - destruct (dict_get k (rev g)) as [v|] eqn:E'; [|reflexivity]. apply dict_get_nodup in E'; [|now apply NoDup_rev_fst]. apply in_rev in E'.
      apply dict_get_nodup in E'; [congruence | exact G1]. }
  rewrite R, G2. assert (Q : named k (sort (fun a b : str * A => str_leb (fst a) (fst b)) l) = named k l).
  { unfold named. f_equal. apply sort_stable. intros a b Ha Hb. apply streq_true in Ha, Hb. rewrite <- Ha, <- Hb. destruct (str_total k k); assumption. }
  rewrite Q. destruct (named k l); reflexivity.
Qed.

(** ** The decision *)
(** the values of the targets with a name, the texts of the entities with a name *)
Definition target_values (f : str) (ts : list target) : list tvalue := map ta_value (filter (fun t => streq f (ta_name t)) ts).
Definition entity_texts (sp : N -> bool) (f : str) (d : doc) : list str := map snd (filter (fun e => streq f (fst e)) (entities sp d)).
Definition checked (f : str) (matching required : list str) : Prop := In f matching \/ In f required.
(** fields that can be checked: at most one value, a plain string *)
Definition checkable (f : str) (ts : list target) : Prop := target_values f ts = [] \/ exists v, target_values f ts = [VOne v].

Lemma named_targets f ts : named f (map (fun t => (ta_name t, ta_value t)) ts) = target_values f ts.
Proof.
  unfold named, target_values. induction ts as [|t ts IH]; [reflexivity|]. cbn [map filter fst]. destruct (streq f (ta_name t)); cbn [map snd]; now rewrite IH.
Qed.
Lemma dict_get_filter {A} (f : str -> bool) k : forall l : list (str * A), f k = true -> dict_get k (filter (fun g => f (fst g)) l) = dict_get k l.
Proof.
  induction l as [|[k' a] l IH]; intros H; [reflexivity|]. cbn [filter fst dict_get]. destruct (streq k k') eqn:E.
  - apply streq_true in E. subst k'. rewrite H. cbn [dict_get]. now rewrite streq_refl.
  - destruct (f k'); [cbn [dict_get]; rewrite E|]; now apply IH.
Qed.
Lemma required_value_spec ts fields d f : In f fields ->
  required_value ts fields d f = match target_values f ts with [] => Ok d | [VOne v] => Ok (dict_set f v d) | _ => Err RuntimeError end.
Proof.
  intros H. unfold required_value, required_by_name. rewrite (dict_get_filter (fun k => mem k fields)) by (now apply mem_In).
  rewrite grouped_spec, named_targets. destruct (target_values f ts) as [|[v|l] [|y k]]; reflexivity.
Qed.
Lemma required_values_spec ts fields :
  ((forall f, In f fields -> checkable f ts) ->
     exists vs, required_values ts fields = Ok vs /\ NoDup (map fst vs) /\ forall f v, In (f, v) vs <-> In f fields /\ target_values f ts = [VOne v])
  /\ ((exists f, In f fields /\ ~ checkable f ts) -> required_values ts fields = Err RuntimeError).
Proof.
  unfold required_values.
  assert (G : forall todo d, (forall f, In f todo -> In f fields) -> NoDup (map fst d) ->
    ((forall f, In f todo -> checkable f ts) ->
       exists vs, foldM (required_value ts fields) d todo = Ok vs /\ NoDup (map fst vs)
         /\ forall f, dict_get f vs = (if mem f todo then match target_values f ts with [VOne v] => Some v | _ => dict_get f d end else dict_get f d))
    /\ ((exists f, In f todo /\ ~ checkable f ts) -> foldM (required_value ts fields) d todo = Err RuntimeError)).
  { induction todo as [|f todo IH]; intros d Hin Hd.
    - split; [|intros (f & [] & _)]. intros _. exists d. repeat split; [exact Hd].
    - cbn [foldM]. rewrite required_value_spec by (apply Hin; now left).
      assert (C : checkable f ts -> forall d', NoDup (map fst d') -> (forall g, dict_get g d' = if streq g f then match target_values f ts with [VOne v] => Some v | _ => dict_get g d end else dict_get g d) ->
        ((forall g, In g (f :: todo) -> checkable g ts) -> exists vs, foldM (required_value ts fields) d' todo = Ok vs /\ NoDup (map fst vs)
           /\ forall g, dict_get g vs = (if mem g (f :: todo) then match target_values g ts with [VOne v] => Some v | _ => dict_get g d end else dict_get g d))
        /\ ((exists g, In g (f :: todo) /\ ~ checkable g ts) -> foldM (required_value ts fields) d' todo = Err RuntimeError)).
      { intros Hc d' Hd' D. destruct (IH d' (fun g Hg => Hin g (or_intror Hg)) Hd') as [J1 J2]. split.
        - intros Hall. destruct J1 as (vs & V1 & V2 & V3); [intros; apply Hall; now right|]. exists vs. split; [exact V1|]. split; [exact V2|].
          intros g. rewrite V3, D. cbn [mem existsb]. destruct (streq g f) eqn:E; cbn [orb].
          + apply streq_true in E. subst g. fold (mem f todo). destruct (mem f todo), (target_values f ts) as [|[v|l] [|y k]]; reflexivity.
          + fold (mem g todo). destruct (mem g todo); reflexivity.
        - intros (g & [<-|Hg] & Hn); [contradiction|]. apply J2. now exists g. }
      destruct (target_values f ts) as [|x [|y k]] eqn:T; [| destruct x as [v|l] |]; cbn [bind].
      + apply (C ltac:(now left) d Hd). intros g. destruct (streq g f); reflexivity.
      + apply (C ltac:(right; exists v; exact T) (dict_set f v d)); [now apply dict_set_keys|]. intros g. destruct (streq g f) eqn:E.
        * apply streq_true in E. subst. apply dict_get_set_same.
        * apply streq_false in E. apply dict_get_set_other. congruence.
      + split; [|reflexivity]. intros Hall. exfalso. destruct (Hall f (or_introl eq_refl)) as [Q|[w Q]]; congruence.
      + replace (match x with VOne _ => Err RuntimeError | VMany _ => @Err (list (str * str)) RuntimeError end) with (@Err (list (str * str)) RuntimeError) by (now destruct x).
        cbn [bind]. split; [|reflexivity]. intros Hall. exfalso. destruct (Hall f (or_introl eq_refl)) as [Q|[w Q]]; congruence. }
  destruct (G fields [] (fun f H => H) ltac:(constructor)) as [G1 G2]. split; [|exact G2]. intros H. destruct (G1 H) as (vs & V1 & V2 & V3).
  exists vs. split; [exact V1|]. split; [exact V2|]. intros f v. rewrite <- (dict_get_nodup vs f v V2), V3. destruct (mem f fields) eqn:M.
  - apply mem_In in M. destruct (target_values f ts) as [|[w|l] [|y k]]; split; try discriminate; try (intros [_ Q]; discriminate); [intros [= <-]; auto | intros [_ [= <-]]; reflexivity].
  - apply mem_nIn in M. split; [discriminate | now intros [Q _]].
Qed.

Section Decision.
Variable sp : N -> bool.
Variable similar : str -> str -> bool.
Lemma fields_spec matching required f : In f (matching ++ filter (fun f => negb (mem f matching)) required) <-> checked f matching required.
Proof.
  unfold checked. rewrite in_app_iff, filter_In, negb_true_iff, mem_nIn. split; [tauto|]. intros [H|H]; [now left|].
  destruct (mem f matching) eqn:M; [apply mem_In in M; now left | apply mem_nIn in M; now right].
Qed.
(** nothing to check: the document passes *)
Theorem C40_nothing d ts : passing sp similar d [] [] ts = Ok true.
Proof. reflexivity. Qed.
(** it is an error if there are no targets, or a checked field has several values or one
    that is not a plain string *)
Theorem C40_error d matching required ts : (exists f, checked f matching required) ->
  (ts = [] \/ exists f, checked f matching required /\ ~ checkable f ts) ->
  passing sp similar d matching required ts = Err RuntimeError.
Proof.
  intros (f & Hf) H. unfold passing. apply fields_spec in Hf. remember (matching ++ filter _ required) as fields eqn:E. destruct fields as [|f0 fs]; [easy|]. rewrite E in *. clear E f0 fs.
  destruct ts as [|t ts]; [reflexivity|]. destruct H as [H|(g & Hg & Hc)]; [discriminate|].
  rewrite (proj2 (required_values_spec (t :: ts) _)); [reflexivity|]. exists g. split; [now apply fields_spec | exact Hc].
Qed.
(** otherwise the document passes exactly if every required field has a value, and for
    every checked field with a value there is tagged text, similar to the value *)
Theorem C40_passes d matching required ts : ts <> [] -> (forall f, checked f matching required -> checkable f ts) ->
  exists b, passing sp similar d matching required ts = Ok b
  /\ (b = true <->
       (forall f, In f required -> target_values f ts <> [])
       /\ (forall f v, checked f matching required -> target_values f ts = [VOne v] ->
             entity_texts sp f d <> [] /\ similar v (join_str (u " ") (entity_texts sp f d)) = true)).
Proof.
  intros Hts Hc. unfold passing. remember (matching ++ filter (fun f => negb (mem f matching)) required) as fields eqn:E.
  assert (FS : forall f, In f fields <-> checked f matching required) by (intros; subst; apply fields_spec). clear E.
  destruct fields as [|f0 fs].
  - exists true. split; [reflexivity|]. split; [|reflexivity]. intros _. split.
    + intros f Hf. exfalso. apply (proj2 (FS f)). now right.
    + intros f v Hf. exfalso. now apply FS in Hf.
  - remember (f0 :: fs) as fields eqn:E. clear E. destruct ts as [|t ts]; [easy|]. remember (t :: ts) as tt eqn:E. clear E t ts.
    destruct (proj1 (required_values_spec tt fields)) as (vs & V1 & V2 & V3); [intros; now apply Hc, FS|]. rewrite V1. cbn [bind].
    assert (K : forall f, In f (map fst vs) <-> checked f matching required /\ target_values f tt <> []).
    { intros f. rewrite in_map_iff. split.
      - intros ([f' v] & <- & H). apply V3 in H as [H1 H2]. cbn [fst]. split; [now apply FS | congruence].
      - intros [H1 H2]. destruct (Hc f H1) as [Q|[v Q]]; [contradiction|]. exists (f, v). split; [reflexivity|]. apply V3. split; [now apply FS | exact Q]. }
    destruct (existsb _ required) eqn:X.
    + exists false. split; [reflexivity|]. split; [discriminate|]. intros [H _]. exfalso.
      apply existsb_exists in X as (f & Hf & X). apply negb_true_iff, mem_nIn in X. apply X, K. split; [now right | now apply H].
    + eexists. split; [reflexivity|]. rewrite forallb_forall. split.
      * intros H. split.
        -- intros f Hf. assert (Q : In f (map fst vs)); [|now apply K in Q]. destruct (mem f (map fst vs)) eqn:M; [now apply mem_In|].
           exfalso. assert (existsb (fun f => negb (mem f (map fst vs))) required = true); [|congruence]. apply existsb_exists. exists f. split; [exact Hf | now rewrite M].
        -- intros f v Hf Hv. assert (I : In (f, v) vs) by (apply V3; split; [now apply FS | exact Hv]). specialize (H _ I). cbn [fst snd] in H.
           rewrite grouped_spec in H. fold (entity_texts sp f d) in *. unfold named in H. fold (entity_texts sp f d) in H.
           destruct (entity_texts sp f d) as [|x k]; [discriminate|]. split; [easy | exact H].
      * intros [_ H] [f v] I. cbn [fst snd]. apply V3 in I as [I1 I2]. apply FS in I1. destruct (H f v I1 I2) as [H1 H2].
        rewrite grouped_spec. unfold named. fold (entity_texts sp f d). destruct (entity_texts sp f d) as [|x k]; [easy | exact H2].
Qed.
End Decision.

(** ** Text of an entity *)
Definition no_double_space (sp : N -> bool) (l : list tok) : Prop :=
  forall p t t' q, l = p ++ t :: t' :: q -> is_space sp t = true -> is_space sp t' = true -> False.
Lemma token_text_cons t t' l : token_text (t :: t' :: l) = tx t ++ or_empty (ws t) ++ token_text (t' :: l).
Proof.
  unfold token_text. change (removelast (t :: t' :: l)) with (t :: removelast (t' :: l)).
  replace (last (t :: t' :: l) t) with (last (t' :: l) t').
  2: { change (last (t :: t' :: l) t) with (last (t' :: l) t). clear. revert t'. induction l as [|x l IH]; intros t'; [reflexivity|].
       change (last (x :: l) t' = last (x :: l) t). clear IH. revert x. induction l as [|y l IH]; intros x; [reflexivity|apply IH]. }
  cbn [flat_map app concat]. reflexivity.
Qed.
Lemma spaced_app sp p l : spaced sp (p ++ l) -> spaced sp l.
Proof. induction p as [|t p IH]; [auto|]. cbn [app]. intros H. apply IH. inversion H; subst; auto; constructor. Qed.
(** The text of the words of a part of a line is the text of that part, if it begins and
    ends with a word and has no two spaces in a row. *)
Theorem C40_text sp p l q t0 :
  spaced sp (p ++ l ++ q) -> l <> [] -> is_space sp (hd t0 l) = false -> is_space sp (last l t0) = false -> no_double_space sp l ->
  token_text (filter (fun t => negb (is_space sp t)) l) = concat (map tx l).
Proof.
  intros H. apply spaced_app in H. revert H. remember (length l) as n eqn:En. assert (Hn : (length l <= n)%nat) by lia. clear En p.
  revert l Hn. induction n as [|n IH]; intros l Hn Hs Hne Hh Hl Hd; (destruct l as [|t l]; [easy|]); cbn [length] in Hn; [lia|].
  cbn [hd] in Hh. cbn [filter]. rewrite Hh. cbn [negb]. destruct l as [|t2 l]; [cbn; now rewrite app_nil_r|].
  assert (Hl2 : is_space sp (last (t2 :: l) t0) = false) by exact Hl.
  assert (Hd2 : no_double_space sp (t2 :: l)) by (intros a x y b E; apply (Hd (t :: a) x y b); now rewrite E).
  destruct (is_space sp t2) eqn:E2.
  - destruct l as [|t3 l]; [cbn in Hl2; congruence|].
    assert (E3 : is_space sp t3 = false).
    { destruct (is_space sp t3) eqn:E3; [|reflexivity]. exfalso. exact (Hd [t] t2 t3 l eq_refl E2 E3). }
    cbn [filter]. rewrite E2, E3. cbn [negb].
    cbn [app] in Hs. inversion Hs as [| |? ? ? B W Hs'|? ? ? B W Hs']; subst; [|unfold is_space in E2; congruence].
    rewrite token_text_cons, W. cbn [or_empty map concat]. do 2 f_equal.
    specialize (IH (t3 :: l)). cbn [filter] in IH. rewrite E3 in IH. cbn [negb] in IH. apply IH; try easy.
    + cbn [length] in *. lia.
    + cbn [app]. inversion Hs'; subst; assumption.
    + intros a x y b E; apply (Hd2 (t2 :: a) x y b); now rewrite E.
  - cbn [filter]. rewrite E2. cbn [negb].
    cbn [app] in Hs. inversion Hs as [| |? ? ? B W Hs'|? ? ? B W Hs']; subst; [unfold is_space in E2; congruence|].
    rewrite token_text_cons, W. cbn [or_empty app map concat]. f_equal.
    specialize (IH (t2 :: l)). cbn [filter] in IH. rewrite E2 in IH. cbn [negb] in IH. apply IH; try easy. cbn [length] in *. lia.
Qed.

Definition ctok (s : string) (t : ostr) : tok := mkTok (u s) t None None None (Some (u " ")).
Definition cdoc : doc := [[ctok "A" (Some (u "b-title")); ctok "B" (Some (u "i-title"))]; [ctok "C" None; ctok " " (Some (u "title")); ctok "D" (Some (u "b-title"))]].
Example C40_words_ex : words_of ascii_space (concat cdoc) [ctok "A" (Some (u "b-title")); ctok "B" (Some (u "i-title")); ctok "C" None; ctok "D" (Some (u "b-title"))].
Proof.
  cbn [cdoc concat app]. apply Words_word; [now left|]. apply Words_word; [now left|]. apply Words_word; [now left|].
  apply Words_space; [repeat constructor|]. apply Words_word; [now left|]. constructor.
Qed.
Example C40_example :
  entities ascii_space cdoc = [(u "title", u "A B"); (u "title", u "D")]
  /\ passing ascii_space streq cdoc [] [u "title"] [mkTarget (u "title") (VOne (u "A B D"))] = Ok true
  /\ passing ascii_space streq cdoc [u "title"] [u "doi"] [mkTarget (u "title") (VOne (u "A B D"))] = Ok false
  /\ passing ascii_space streq cdoc [u "title"; u "doi"] [] [mkTarget (u "title") (VOne (u "A B D"))] = Ok true
  /\ passing ascii_space streq cdoc [u "title"] [] [mkTarget (u "title") (VMany [u "A B D"])] = Err RuntimeError
  /\ checkable (u "title") [mkTarget (u "title") (VOne (u "A B D"))].
Proof. repeat split; try reflexivity. right. now exists (u "A B D"). Qed.

Definition wtok (s : string) (w : ostr) : tok := mkTok (u s) None None None None w.
Definition wline : list tok := [wtok "x" (Some []); wtok "(" (Some []); wtok "A" (Some (u " ")); wtok " " (Some []); wtok "B" (Some [])] ++ [wtok ")" (Some (u " ")); wtok " " None].
Example C40_text_ex : spaced ascii_space wline
  /\ token_text (filter (fun t => negb (is_space ascii_space t)) (firstn 3 (skipn 2 wline))) = u "A B".
Proof.
  split; [|reflexivity]. unfold wline. cbn [app].
  repeat (first [apply spaced_last; reflexivity | apply spaced_blank; [reflexivity|reflexivity|] | apply spaced_word; [reflexivity|reflexivity|]]).
Qed.

Print Assumptions C40_text.
Print Assumptions C40_entities.
Print Assumptions C40_all_tokens.
Print Assumptions C40_words.
Print Assumptions C40_segmented_unique.
Print Assumptions C40_error.
Print Assumptions C40_passes.
