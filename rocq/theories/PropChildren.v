(** C89: the texts of the children of an element. *)
From Coq Require Import Permutation Sorted.
From Verif Require Import Base ModelFuzzyMatch ModelClusters ModelJoined ModelWordMatch ModelTarget PropTarget ModelMapping PropMapping ModelTagConfigs PropTagConfigs ModelTargets PropTargets.
Open Scope list_scope.
Open Scope nat_scope.

(** the members with a property, in order *)
Definition those (P : npath -> Prop) (l l' : list npath) : Prop := exists keep, l' = filter keep l /\ forall p, In p l -> (keep p = true <-> P p).
Definition has_child_in (l : list npath) (p : npath) : Prop := exists i, In (p ++ [i]) l.
(* ---------------------------------------------------------------- *)
(** ** Elements without the parents of others *)
Lemma parent_spec p q : parent p = Some q <-> exists i, p = q ++ [i].
Proof.
  destruct p as [|x p]; cbn [parent]; [split; [discriminate|intros [i H]; now destruct q]|]. split.
  - intros H. assert (q = removelast (x :: p)) as -> by congruence. clear H. exists (last (x :: p) 0). apply app_removelast_last. discriminate.
  - intros [i E]. rewrite E. f_equal. apply removelast_last.
Qed.
Lemma exclude_spec l p : In p (exclude_parents l) <-> In p l /\ ~ exists i, In (p ++ [i]) l.
Proof.
  unfold exclude_parents. rewrite filter_In, negb_true_iff, pmem_false. split; intros [H G]; (split; [exact H|]).
  - intros [i Hi]. apply G. apply in_flat_map. exists (p ++ [i]). split; [exact Hi|]. rewrite (proj2 (parent_spec (p ++ [i]) p)); [now left|now exists i].
  - intros Hin. apply in_flat_map in Hin as (q & Hq & Hin). destruct (parent q) as [r|] eqn:E; [|destruct Hin]. destruct Hin as [->|[]]. apply parent_spec in E as [i ->]. apply G. now exists i.
Qed.
Lemma exclude_those l : those (fun p => ~ has_child_in l p) l (exclude_parents l).
Proof.
  unfold exclude_parents. eexists. split; [reflexivity|]. intros p Hp. pose proof (exclude_spec l p) as H. unfold exclude_parents in H. rewrite filter_In in H. unfold has_child_in. tauto.
Qed.
Lemma not_exclude_those l : those (has_child_in l) l (filter (fun p => negb (pmem p (exclude_parents l))) l).
Proof.
  eexists. split; [reflexivity|]. intros p Hp. rewrite negb_true_iff, pmem_false, exclude_spec. unfold has_child_in. split; [|tauto].
  intros H. destruct (existsb (fun q => match parent q with Some r => peq r p | None => false end) l) eqn:E.
  - apply existsb_exists in E as (q & Hq & E). destruct (parent q) as [r|] eqn:Er; [|discriminate]. apply peq_spec in E. subst r. apply parent_spec in Er as [i ->]. now exists i.
  - exfalso. apply H. split; [exact Hp|]. intros [i Hi]. enough (existsb (fun q => match parent q with Some r => peq r p | None => false end) l = true) by congruence.
    apply existsb_exists. exists (p ++ [i]). split; [exact Hi|]. rewrite (proj2 (parent_spec (p ++ [i]) p)) by (now exists i). now apply peq_spec.
Qed.
Lemma exclude_ne l : l <> [] -> exclude_parents l <> [].
Proof.
  intros H E. assert (G : forall n p, In p l -> exists q, In q l /\ length p + n <= length q).
  { induction n as [|n IH]; intros p Hp; [exists p; split; [exact Hp|lia]|]. destruct (IH p Hp) as (q & Hq & L).
    destruct (existsb (fun r => match parent r with Some t => peq t q | None => false end) l) eqn:X.
    - apply existsb_exists in X as (r & Hr & X). destruct (parent r) as [t|] eqn:P; [|discriminate]. apply peq_spec in X. subst t. apply parent_spec in P as [i ->].
      exists (q ++ [i]). split; [exact Hr|]. rewrite app_length. cbn [length]. lia.
    - exfalso. assert (In q (exclude_parents l)); [|rewrite E in *; easy]. apply exclude_spec. split; [exact Hq|]. intros [i Hi].
      enough (existsb (fun r => match parent r with Some t => peq t q | None => false end) l = true) by congruence. apply existsb_exists. exists (q ++ [i]). split; [exact Hi|].
      rewrite (proj2 (parent_spec (q ++ [i]) q)) by (now exists i). now apply peq_spec. }
  destruct l as [|p l]; [easy|]. set (m := list_max (map (@length nat) (p :: l))). destruct (G (S m) p (or_introl eq_refl)) as (q & Hq & L).
  assert (length q <= m). { unfold m. pose proof (proj1 (list_max_le (map (@length nat) (p :: l)) _) (le_n _)) as F. rewrite Forall_forall in F. apply F. now apply in_map. }
  lia.
Qed.

Section Children.
Variables sp dg : N -> bool.
Variable parse_int : str -> option Z.
Variable show_int : Z -> str.
Variable xpath : npath -> str -> res (list npath).
Variable content_excluding : list npath -> npath -> str.
Variable root : node.
Hypothesis sp_ws4 : forall c, ws4 c = true -> sp c = true.
Let text p := clean_text sp root p.
Let children := extract_children sp dg parse_int show_int xpath content_excluding root.
Notation visible := (visible_chars sp).

(* ---------------------------------------------------------------- *)
(** ** Specification *)
(** the value of a source, and the elements it uses; a source that finds nothing has none *)
Inductive source_value (e : npath) (s : source) : str -> list npath -> Prop :=
| SV_fixed : truthy (s_xpath s) = false -> source_value e s (match s_value s with Some v => v | None => [] end) []
| SV_found x found ns : s_xpath s = Some x -> x <> [] -> xpath e x = Ok found -> found <> [] ->
    those (fun p => ~ has_child_in found p) found ns ->
    source_value e s (join_str (u " ") (map text ns)) ns.
Definition source_fails (e : npath) (s : source) : Prop := exists x, s_xpath s = Some x /\ x <> [] /\ xpath e x = Ok [].
(** a list of sources has all its values, or none if one of them finds nothing *)
Inductive source_values (e : npath) : list source -> list str -> list npath -> Prop :=
| SVs_nil : source_values e [] [] []
| SVs_cons s l v ns vs nss : source_value e s v ns -> source_values e l vs nss -> source_values e (s :: l) (v :: vs) (ns ++ nss).

(* ---------------------------------------------------------------- *)
(** ** Sources *)
Lemma texts_ok ns : mapM (fun p => stripped sp (content root p)) ns = Ok (map text ns).
Proof using. apply mapM_F2. induction ns as [|p ns IH]; constructor; [apply stripped_ok|exact IH]. Qed.
Theorem C89_sources : forall e l vs ns, source_list sp xpath root e l = Ok (vs, ns) ->
  source_values e l vs ns \/ (vs = [] /\ ns = [] /\ exists s, In s l /\ source_fails e s).
Proof using.
  intros e l. unfold source_list.
  enough (G : forall v0 n0 vs ns, source_list_go sp xpath root e v0 n0 l = Ok (vs, ns) ->
    (exists vs' ns', vs = v0 ++ vs' /\ ns = n0 ++ ns' /\ source_values e l vs' ns') \/ (vs = [] /\ ns = [] /\ exists s, In s l /\ source_fails e s)).
  { intros vs ns H. destruct (G _ _ _ _ H) as [(vs' & ns' & -> & -> & G')|G']; [now left|now right]. }
  induction l as [|s l IH]; intros v0 n0 vs ns H; cbn [source_list_go] in H.
  - injection H as <- <-. left. exists [], []. rewrite !app_nil_r. repeat split. constructor.
  - assert (F : truthy (s_xpath s) = false -> source_list_go sp xpath root e (v0 ++ [match s_value s with Some v => v | None => [] end]) n0 l = Ok (vs, ns) -> 
      (exists vs' ns', vs = v0 ++ vs' /\ ns = n0 ++ ns' /\ source_values e (s :: l) vs' ns') \/ (vs = [] /\ ns = [] /\ exists s', In s' (s :: l) /\ source_fails e s')).
    { intros Ht G. destruct (IH _ _ _ _ G) as [(vs' & ns' & -> & -> & G')|(A & B & s' & C & D)].
      - left. exists (match s_value s with Some v => v | None => [] end :: vs'), ns'. split; [now rewrite <- app_assoc|]. split; [reflexivity|].
        change ns' with ([] ++ ns'). constructor; [now constructor|exact G'].
      - right. repeat split; auto. exists s'. split; [now right|exact D]. }
    destruct (s_xpath s) as [[|c x]|] eqn:Ex; [now apply F| |now apply F]. clear F. destruct (xpath e (c :: x)) as [found|] eqn:Ef; [|discriminate]. cbn [bind] in H.
    destruct found as [|p0 found0] eqn:Efound.
    + cbn in H. injection H as <- <-. right. repeat split. exists s. split; [now left|]. exists (c :: x). now repeat split.
    + rewrite <- Efound in *. assert (Hne : found <> []) by (rewrite Efound; discriminate). pose proof (exclude_ne found Hne) as He.
      destruct (exclude_parents found) as [|q ns0] eqn:En; [easy|]. rewrite <- En in *. rewrite texts_ok in H. cbn [bind] in H.
      destruct (IH _ _ _ _ H) as [(vs' & ns' & -> & -> & G')|(A & B & s' & C & D)].
      * left. exists (join_str (u " ") (map text (exclude_parents found)) :: vs'), (exclude_parents found ++ ns'). split; [now rewrite <- app_assoc|]. split; [now rewrite <- app_assoc|].
        constructor; [|exact G']. apply (SV_found e s (c :: x) found); auto; [discriminate|apply exclude_those].
      * right. repeat split; auto. exists s'. split; [now right|exact D].
Qed.
(** [children.concat]: one value for each entry whose sources all have a value *)
Definition concat_value (e : npath) (item : list source) (vs : list str) (ns : list npath) : Prop :=
  (item <> [] /\ exists parts, source_values e item parts ns /\ vs = [concat parts]) \/
  (vs = [] /\ ns = [] /\ (item = [] \/ exists s, In s item /\ source_fails e s)).
Theorem C89_concat : forall e l vs ns, children_concat sp xpath root e l = Ok (vs, ns) ->
  exists rs, Forall2 (fun item r => concat_value e item (fst r) (snd r)) l rs /\ vs = concat (map fst rs) /\ ns = concat (map snd rs).
Proof using.
  intros e l. unfold children_concat.
  enough (G : forall st vs ns, foldM (fun st item => do r <- source_list sp xpath root e item ;; Ok (match fst r with [] => fst st | vs => fst st ++ [concat vs] end, snd st ++ snd r)) st l = Ok (vs, ns) ->
    exists rs, Forall2 (fun item r => concat_value e item (fst r) (snd r)) l rs /\ vs = fst st ++ concat (map fst rs) /\ ns = snd st ++ concat (map snd rs)).
  { intros vs ns H. exact (G _ _ _ H). }
  induction l as [|item l IH]; intros st vs ns H; cbn [foldM] in H.
  - injection H as ->. exists []. cbn. rewrite !app_nil_r. repeat split. constructor.
  - destruct (source_list sp xpath root e item) as [[v n]|] eqn:E; [|discriminate]. cbn [bind fst snd] in H. apply IH in H as (rs & HF & -> & ->). cbn [fst snd].
    apply C89_sources in E. exists ((match v with [] => [] | _ => [concat v] end, n) :: rs). split; [|cbn [map concat fst snd]; split; [destruct v; cbn; now rewrite <- ?app_assoc|now rewrite app_assoc]].
    constructor; [|exact HF]. cbn [fst snd]. destruct E as [E|(-> & -> & E)].
    + destruct item as [|s item]; [inversion E; subst; right; auto|]. left. split; [discriminate|]. inversion E; subst. eexists. split; [exact E|]. reflexivity.
    + right. auto.
Qed.
(** [children.range]: all numbers from the first to the last one, in order, if both are
    numbers; otherwise nothing *)
Definition is_number (s : str) (z : Z) : Prop := s <> [] /\ forallb dg s = true /\ parse_int s = Some z.
Definition range_value (e : npath) (item : range_item) (zs : list Z) (ns : list npath) : Prop :=
  (exists va vb a b, source_values e [ri_min item; ri_max item] [va; vb] ns /\ is_number (strip sp va) a /\ is_number (strip sp vb) b /\
     StronglySorted Z.lt zs /\ forall z, In z zs <-> (a <= z <= b)%Z) \/
  (zs = [] /\ ns = [] /\
     ((source_fails e (ri_min item) \/ source_fails e (ri_max item)) \/
      (exists va vb ns', source_values e [ri_min item; ri_max item] [va; vb] ns' /\ (is_digits dg (strip sp va) && is_digits dg (strip sp vb)) = false))).
Lemma numbers_spec a b : StronglySorted Z.lt (numbers a b) /\ forall z, In z (numbers a b) <-> (a <= z <= b)%Z.
Proof using.
  unfold numbers. split.
  - generalize 0. generalize (Z.to_nat (b + 1 - a)). intros n. induction n as [|n IH]; intros k; cbn [seq map]; constructor; [apply IH|].
    apply Forall_forall. intros z Hz. apply in_map_iff in Hz as (j & <- & Hj). apply in_seq in Hj. lia.
  - intros z. rewrite in_map_iff. split.
    + intros (k & <- & Hk). apply in_seq in Hk. lia.
    + intros H. exists (Z.to_nat (z - a)). split; [lia|]. apply in_seq. lia.
Qed.
Theorem C89_range : forall e l vs st ns, children_range sp dg parse_int show_int xpath root e l = Ok (vs, st, ns) ->
  exists rs, Forall2 (fun item r => range_value e item (fst r) (snd r)) l rs /\
    vs = map show_int (concat (map (fun x => if ri_standalone (fst x) then [] else fst (snd x)) (combine l rs))) /\
    st = map show_int (concat (map (fun x => if ri_standalone (fst x) then fst (snd x) else []) (combine l rs))) /\
    ns = concat (map snd rs).
Proof using.
  intros e l. unfold children_range.
  enough (G : forall s0 vs st ns, foldM (range_step sp dg parse_int show_int xpath root e) s0 l = Ok (vs, st, ns) ->
    exists rs, Forall2 (fun item r => range_value e item (fst r) (snd r)) l rs /\
    vs = fst (fst s0) ++ map show_int (concat (map (fun x => if ri_standalone (fst x) then [] else fst (snd x)) (combine l rs))) /\
    st = snd (fst s0) ++ map show_int (concat (map (fun x => if ri_standalone (fst x) then fst (snd x) else []) (combine l rs))) /\
    ns = snd s0 ++ concat (map snd rs)).
  { intros vs st ns H. exact (G _ _ _ _ H). }
  induction l as [|item l IH]; intros [[v0 s0] n0] vs st ns H; cbn [foldM] in H.
  - injection H as <- <- <-. exists []. cbn. rewrite !app_nil_r. repeat split. constructor.
  - destruct (range_step _ _ _ _ _ _ _ _ _) as [[[v1 s1] n1]|] eqn:E; [|discriminate]. cbn [bind] in H. apply IH in H as (rs & HF & -> & -> & ->). cbn [fst snd].
    enough (G : exists zs nn, range_value e item zs nn /\ v1 = v0 ++ map show_int (if ri_standalone item then [] else zs) /\
       s1 = s0 ++ map show_int (if ri_standalone item then zs else []) /\ n1 = n0 ++ nn).
    { destruct G as (zs & nn & G & -> & -> & ->). exists ((zs, nn) :: rs). split; [now constructor|]. cbn [combine map concat fst snd]. rewrite !map_app, !app_assoc. now repeat split. }
    clear HF IH. unfold range_step in E. destruct (source_list sp xpath root e [ri_min item; ri_max item]) as [[v n]|] eqn:Es; [|discriminate]. cbn [bind fst snd] in E.
    apply C89_sources in Es as [Es|(-> & -> & Es)].
    + inversion Es as [|s1' l1' va na vs1 nss1 Ha Hl]; subst. inversion Hl as [|s2' l2' vb nb vs2 nss2 Hb Hl2]; subst. inversion Hl2; subst. cbn [strip_all map] in E.
      destruct (is_digits dg (strip sp va) && is_digits dg (strip sp vb)) eqn:Ed.
      * apply andb_true_iff in Ed as [Da Db]. unfold to_int in E. destruct (parse_int (strip sp va)) as [a|] eqn:Ia; [|discriminate]. cbn [bind] in E.
        destruct (parse_int (strip sp vb)) as [b|] eqn:Ib; [|discriminate]. cbn [bind] in E. exists (numbers a b), (na ++ nb ++ []). split.
        -- left. exists va, vb, a, b. split; [exact Es|]. unfold is_digits in Da, Db. apply andb_true_iff in Da as [Da1 Da2]. apply andb_true_iff in Db as [Db1 Db2].
           apply nonempty_spec in Da1, Db1. split; [now repeat split|]. split; [now repeat split|]. apply numbers_spec.
        -- destruct (ri_standalone item); injection E as <- <- <-; cbn [map]; rewrite ?app_nil_r; now repeat split.
      * injection E as <- <- <-. exists [], []. split; [|destruct (ri_standalone item); cbn; rewrite !app_nil_r; now repeat split].
        right. repeat split. right. exists va, vb, (na ++ nb ++ []). now split.
    + cbn [strip_all map] in E. injection E as <- <- <-. exists [], []. split; [|destruct (ri_standalone item); cbn; rewrite !app_nil_r; now repeat split].
      right. repeat split. left. destruct Es as (s & [<-|[<-|[]]] & Hs); [now left|now right].
Qed.

(* ---------------------------------------------------------------- *)
(** ** Where the texts come from *)
Lemma strip_text p : strip sp (text p) = text p.
Proof using sp_ws4. apply strip_id, stripped_clean, sp_ws4. Qed.
(** the texts: those of the elements found that are not used by a concatenation or range,
    whole if none of their children is among them and without their children otherwise,
    the concatenations and the ranges; and at the end, if asked for, the text of the element
    outside of all of these, unless it is there already *)
Theorem C89_texts : forall e f texts st, children e f = Ok (texts, st) ->
  exists cvs cns rvs rns found other leaves inner base, children_concat sp xpath root e (fc_concat f) = Ok (cvs, cns) /\
    children_range sp dg parse_int show_int xpath root e (fc_range f) = Ok (rvs, st, rns) /\
    found_by xpath (fc_children f) e found /\
    those (fun p => ~ In p (cns ++ rns)) found other /\
    those (fun p => ~ has_child_in other p) other leaves /\ those (has_child_in other) other inner /\
    base = filter nonempty (map text leaves ++ map (strip sp) (cvs ++ rvs) ++ flat_map (fun p => map (strip sp) (immediate_text root p)) inner) /\
    let rest := norm (strip sp (content_excluding (other ++ cns ++ rns) e)) in
    if fc_unmatched f then (texts = base /\ (rest = [] \/ In rest base)) \/ (texts = base ++ [rest] /\ rest <> [] /\ ~ In rest base)
    else texts = base.
Proof using sp_ws4.
  intros e f texts st H. unfold children, extract_children in H. destruct (children_concat _ _ _ _ _) as [[cvs cns]|]; [|discriminate]. cbn [bind] in H.
  destruct (children_range _ _ _ _ _ _ _ _) as [[[rvs st'] rns]|]; [|discriminate]. cbn [bind fst snd] in H.
  destruct (all_xpaths _ _ _) as [found|] eqn:Ef; [|discriminate]. cbn [bind] in H. apply all_xpaths_spec in Ef. rewrite texts_ok in H. cbn [bind] in H.
  set (other := filter (fun p => negb (pmem p (cns ++ rns))) found) in *.
  set (base := truthy_only _ ++ _) in H.
  assert (Hb : base = filter nonempty (map text (exclude_parents other) ++ map (strip sp) (cvs ++ rvs)
              ++ flat_map (fun p => map (strip sp) (immediate_text root p)) (filter (fun p => negb (pmem p (exclude_parents other))) other))).
  { unfold base, truthy_only, strip_all. rewrite !map_app, !filter_app, <- !app_assoc. f_equal.
    - f_equal. rewrite map_map. apply map_ext, strip_text.
    - f_equal. f_equal. set (l := filter (fun p => negb (pmem p (exclude_parents other))) other). clearbody l. induction l as [|p l IH]; [reflexivity|]. cbn [flat_map]. now rewrite filter_app, IH. }
  assert (S : st' = st). { destruct (fc_unmatched f); [rewrite stripped_ok in H|]; cbn [bind] in H; injection H as _ <-; reflexivity. } subst st'.
  exists cvs, cns, rvs, rns, found, other, (exclude_parents other), (filter (fun p => negb (pmem p (exclude_parents other))) other), base.
  split; [reflexivity|]. split; [reflexivity|]. split; [exact Ef|]. split; [|split; [apply exclude_those|split; [apply not_exclude_those|split; [exact Hb|]]]].
  { eexists. split; [reflexivity|]. intros p _. now rewrite negb_true_iff, pmem_false. }
  cbv zeta.
  destruct (fc_unmatched f); [|cbn [bind] in H; now injection H]. rewrite stripped_ok in H. cbn [bind] in H. rewrite (strip_id sp (norm _)) in H by (apply stripped_clean, sp_ws4).
  fold other. set (rest := norm _) in *. clearbody rest. injection H as <-. destruct (nonempty rest) eqn:Hn; cbn [andb].
  - apply nonempty_spec in Hn. destruct (mem rest base) eqn:Hm; cbn [negb].
    + left. split; [reflexivity|]. right. now apply mem_In.
    + right. repeat split; [exact Hn|]. now apply mem_nIn.
  - left. split; [reflexivity|]. left. destruct rest; [reflexivity|discriminate].
Qed.

(* ---------------------------------------------------------------- *)
(** ** Nothing is lost *)
Lemma visible_norm s : visible (norm s) = visible s.
Proof using sp_ws4.
  unfold norm. enough (G : forall s run, visible (norm_go run s) = visible s) by apply G. clear s. induction s as [|c s IH]; intros run; cbn [norm_go].
  - destruct run as [[|]|]; cbn; rewrite ?sp_ws4 by reflexivity; reflexivity.
  - destruct (ws4 c) eqn:W.
    + rewrite IH. cbn [visible_chars filter]. now rewrite (sp_ws4 c W).
    + assert (Ee : forall r, visible (emit r) = []) by (intros [[|]|]; cbn; rewrite ?sp_ws4 by reflexivity; reflexivity).
      rewrite visible_app, Ee. cbn [app visible_chars filter]. fold (visible (norm_go None s)). fold (visible s). now rewrite IH.
Qed.
Lemma visible_text p : visible (text p) = visible (content root p).
Proof using sp_ws4. unfold text, clean_text. now rewrite visible_norm, visible_strip. Qed.
Lemma visible_concat l : visible (concat l) = flat_map visible l.
Proof using. induction l as [|x l IH]; [reflexivity|]. cbn [concat flat_map]. now rewrite visible_app, IH. Qed.
Lemma visible_truthy l : flat_map visible (filter nonempty l) = flat_map visible l.
Proof using. induction l as [|[|c x] l IH]; [reflexivity|exact IH|]. cbn [filter nonempty flat_map]. now rewrite IH. Qed.
(** the text of an element outside of its child elements *)
Definition own (n : node) : str := match n with El t cs _ => t ++ concat (map ntail cs) | Cm _ _ => [] end.
Definition is_element (n : node) : bool := match n with El _ _ _ => true | Cm _ _ => false end.
Lemma some_text_concat s : concat (some_text s) = s.
Proof using. destruct s; cbn; [reflexivity|now rewrite app_nil_r]. Qed.
Lemma immediate_own p n : node_at root p = Some n -> concat (immediate_text root p) = own n.
Proof using.
  intros E. unfold immediate_text. rewrite E. destruct n as [t cs tl|t tl]; [|reflexivity]. cbn [own]. rewrite concat_app, some_text_concat. f_equal. clear E.
  induction cs as [|c cs IH]; [reflexivity|]. cbn [flat_map map concat]. now rewrite concat_app, some_text_concat, IH.
Qed.
(** all nodes below *)
Fixpoint below_nodes (n : node) : list node :=
  match n with El _ cs _ => flat_map (fun c => c :: below_nodes c) cs | Cm _ _ => [] end.
Ltac perm := apply (Permutation_count_occ N.eq_dec); intros ?; rewrite ?count_occ_app; lia.
Lemma content_split n : Permutation (concat (itertext n)) (own n ++ flat_map own (below_nodes n)).
Proof using.
  induction n as [n IH] using node_size_ind. destruct n as [t cs tl|t tl]; [|constructor]. cbn [itertext own below_nodes nchildren] in *.
  rewrite concat_app, some_text_concat, <- app_assoc. apply Permutation_app_head. induction cs as [|c cs IHcs]; [constructor|]. cbn [flat_map map concat].
  specialize (IHcs (fun x Hx => IH x (or_intror Hx))). specialize (IH c (or_introl eq_refl)). rewrite !concat_app, some_text_concat. rewrite !flat_map_app. cbn [flat_map app].
  apply (Permutation_count_occ N.eq_dec). intros z. pose proof (proj1 (Permutation_count_occ N.eq_dec _ _) IH z) as A. pose proof (proj1 (Permutation_count_occ N.eq_dec _ _) IHcs z) as B.
  rewrite !count_occ_app in *. lia.
Qed.
(** [found] are the elements below [e], each once *)
Definition all_below (e : npath) (found : list npath) : Prop := NoDup found /\
  forall p, In p found <-> (exists r, r <> [] /\ p = e ++ r) /\ exists t cs tl, node_at root p = Some (El t cs tl).

Lemma node_at_app n p : forall q, node_at n (p ++ q) = match node_at n p with Some m => node_at m q | None => None end.
Proof using. revert n. induction p as [|i p IH]; intros n q; [reflexivity|]. cbn [app node_at]. destruct (nth_error _ _); [apply IH|reflexivity]. Qed.
Lemma paths_nodes n : forall m pre, node_at m pre = Some n -> map (node_at m) (paths_from pre n) = map Some (n :: below_nodes n).
Proof using.
  induction n as [n IH] using node_size_ind. intros m pre E. rewrite paths_from_eq. cbn [map]. f_equal; [exact E|].
  assert (G : forall l i, (forall j c, nth_error l j = Some c -> nth_error (nchildren n) (i + j) = Some c) ->
     map (node_at m) (paths_list pre i l) = map Some (flat_map (fun c => c :: below_nodes c) l)).
  { induction l as [|c l IHl]; intros i Hl; cbn [paths_list flat_map]; [reflexivity|]. rewrite !map_app. f_equal.
    - pose proof (Hl 0 c eq_refl) as Hc. rewrite Nat.add_0_r in Hc. apply IH; [eapply nth_error_In, Hc|]. rewrite node_at_app, E. cbn [node_at]. now rewrite Hc.
    - apply IHl. intros j d Hd. specialize (Hl (S j) d Hd). now rewrite Nat.add_succ_r in Hl. }
  rewrite G by (intros j c Hc; exact Hc). destruct n; reflexivity.
Qed.
Definition own_at (p : npath) : str := match node_at root p with Some n => own n | None => [] end.
Lemma flat_map_perm {A B} (g : A -> list B) l l' : Permutation l l' -> Permutation (flat_map g l) (flat_map g l').
Proof using. induction 1; cbn [flat_map]; [constructor|now apply Permutation_app_head| |etransitivity; eassumption]. rewrite !app_assoc. apply Permutation_app_tail, Permutation_app_comm. Qed.
Lemma paths_nodup m pre : NoDup (paths_from pre m).
Proof using.
  pose proof (paths_sorted m pre) as H. induction H as [|x l H IH F]; constructor; [|exact IH]. intros Hx. rewrite Forall_forall in F. now apply (before_irrefl x), F.
Qed.
Definition element_at (p : npath) : bool := match node_at root p with Some (El _ _ _) => true | _ => false end.
Lemma below_perm e n found : node_at root e = Some n -> all_below e found -> Permutation (flat_map own_at found) (flat_map own (below_nodes n)).
Proof using.
  intros E [Hnd Hf]. pose proof (paths_nodes n root e E) as G. pose proof (paths_nodup n e) as D. pose proof (paths_in n e) as I.
  rewrite paths_from_eq in G, D, I. set (tlp := paths_list e 0 (nchildren n)) in *. clearbody tlp. cbn [map] in G. injection G as _ G. inversion D as [|? ? D1 D2]; subst.
  transitivity (flat_map own_at (filter element_at tlp)).
  - apply flat_map_perm, NoDup_Permutation; [exact Hnd|now apply NoDup_filter|]. intros p. rewrite Hf, filter_In. unfold element_at. split.
    + intros [(r & Hr & ->) (t & cs & tl & Hp)]. rewrite Hp. split; [|reflexivity]. destruct (proj2 (I (e ++ r))) as [X|X]; [|exfalso|exact X].
      * exists r. split; [reflexivity|]. rewrite node_at_app, E in Hp. congruence.
      * apply Hr. rewrite <- (app_nil_r e) in X at 1. now apply app_inv_head in X.
    + intros [Hp Hel]. split.
      * destruct (proj1 (I p) (or_intror Hp)) as (r & -> & _). exists r. split; [|reflexivity]. intros ->. rewrite app_nil_r in Hp. contradiction.
      * destruct (node_at root p) as [[t cs tl|]|]; try discriminate. now exists t, cs, tl.
  - clear - G. revert G. generalize (below_nodes n). induction tlp as [|p tlp IH]; intros [|m ms] G; try discriminate; [constructor|]. cbn [map] in G. injection G as G1 G2.
    cbn [filter]. unfold element_at at 1. rewrite G1. specialize (IH _ G2). destruct m as [t cs tl|t tl]; [|exact IH]. cbn [flat_map]. unfold own_at at 1. rewrite G1. now apply Permutation_app_head.
Qed.
Lemma own_content p : (forall i t cs tl, node_at root (p ++ [i]) <> Some (El t cs tl)) -> content root p = own_at p.
Proof using.
  intros H. unfold content, own_at. destruct (node_at root p) as [[t cs tl|t tl]|] eqn:E; try reflexivity. cbn [itertext own]. rewrite concat_app, some_text_concat. f_equal.
  assert (G : forall c, In c cs -> itertext c = []).
  { intros c Hc. apply In_nth_error in Hc as [i Hi]. destruct c as [t' cs' tl'|t' tl']; [|reflexivity]. exfalso. apply (H i t' cs' tl'). rewrite node_at_app, E. cbn [node_at nchildren]. now rewrite Hi. }
  clear - G. induction cs as [|c cs IH]; [reflexivity|]. cbn [flat_map map concat]. rewrite (G c (or_introl eq_refl)). cbn [app]. rewrite concat_app, some_text_concat, IH by (intros; apply G; now right). reflexivity.
Qed.
Lemma visible_perm a b : Permutation a b -> Permutation (visible a) (visible b).
Proof using. induction 1; cbn [visible_chars filter]; unfold visible_chars in *; cbn [filter]; repeat destruct (negb _); try (constructor; assumption); try constructor; auto. etransitivity; eassumption. Qed.
Lemma partition_perm {A} (g : A -> bool) l : Permutation l (filter g l ++ filter (fun x => negb (g x)) l).
Proof using. induction l as [|x l IH]; [constructor|]. cbn [filter]. destruct (g x); cbn [negb app]; [now constructor|]. etransitivity; [now apply perm_skip, IH|]. apply Permutation_middle. Qed.

(** With all elements below as children ([.//*]) no text is lost and none is there twice:
    up to spaces and order, the text of the element is its own text and the texts. *)
Theorem C89_wildcard : forall e n f texts st, node_at root e = Some n -> fc_concat f = [] -> fc_range f = [] -> fc_unmatched f = false ->
  (forall found, found_by xpath (fc_children f) e found -> all_below e found) ->
  children e f = Ok (texts, st) ->
  st = [] /\ Permutation (visible (content root e)) (visible (concat (immediate_text root e)) ++ visible (concat texts)).
Proof using sp_ws4.
  intros e n f texts st E Hc Hr Hu Hf H. apply C89_texts in H as (cvs & cns & rvs & rns & found & other & leaves & inner & base & Ec & Er & Ef & Ho & Hl & Hi & Hb & H).
  rewrite Hc in Ec. rewrite Hr in Er. cbn in Ec, Er.
  injection Ec as <- <-. injection Er as <- <- <-. split; [reflexivity|]. cbv zeta in H. rewrite Hu in H. subst base. rewrite H. clear H.
  assert (Eo : other = found). { destruct Ho as (keep & -> & Hk). clear - Hk. induction found as [|p l IH]; [reflexivity|]. cbn [filter]. rewrite (proj2 (Hk p (or_introl eq_refl))) by (intros []). f_equal. apply IH. intros; apply Hk; now right. }
  subst other. clear Ho. specialize (Hf _ Ef). cbn [app map]. rewrite (visible_concat (filter nonempty _)), visible_truthy, flat_map_app, (immediate_own e n E).
  assert (A : flat_map visible (map text leaves) = visible (flat_map own_at leaves)).
  { assert (G : forall p, In p leaves -> visible (text p) = visible (own_at p)).
    { intros p Hp. destruct Hl as (keep & -> & Hk). apply filter_In in Hp as [Hp Hno]. apply (Hk p Hp) in Hno. rewrite visible_text. f_equal. apply own_content. intros i t cs tl Hx. apply Hno. exists i.
      apply (proj2 Hf). apply (proj2 Hf) in Hp as [(r & Hr0 & ->) _].
      split; [|now exists t, cs, tl]. exists (r ++ [i]). split; [now destruct r|now rewrite app_assoc]. }
    revert G. clear. intros G. induction leaves as [|p l IH]; [reflexivity|]. cbn [map flat_map]. rewrite visible_app, (G p) by (now left). f_equal. apply IH. intros; apply G; now right. }
  assert (B : flat_map visible (flat_map (fun p => map (strip sp) (immediate_text root p)) inner) = visible (flat_map own_at inner)).
  { clear. induction inner as [|p l IH]; [reflexivity|]. cbn [flat_map]. rewrite flat_map_app, visible_app, IH. f_equal.
    assert (G : concat (immediate_text root p) = own_at p). { unfold own_at. destruct (node_at root p) as [m|] eqn:Em; [now apply immediate_own|]. unfold immediate_text. now rewrite Em. }
    rewrite <- G. generalize (immediate_text root p). clear. intros l. induction l as [|x l IH]; [reflexivity|]. cbn [map flat_map concat]. now rewrite visible_app, visible_strip, IH. }
  rewrite A, B, <- !visible_app, <- flat_map_app. unfold content. rewrite E. apply visible_perm. rewrite (content_split n). apply Permutation_app_head. symmetry.
  etransitivity; [|exact (below_perm e n found E Hf)]. apply flat_map_perm. destruct Hl as (k1 & -> & H1), Hi as (k2 & -> & H2).
  rewrite (partition_perm k1 found) at 3. apply Permutation_app_head. erewrite (filter_ext_in k2); [reflexivity|]. intros p Hp. specialize (H1 p Hp). specialize (H2 p Hp).
  assert (Hd : has_child_in found p \/ ~ has_child_in found p). { destruct (k2 p); [left; now apply H2|right; intros X; apply H2 in X; discriminate]. }
  destruct Hd as [Hd|Hd].
  - rewrite (proj2 H2 Hd). destruct (k1 p); [|reflexivity]. exfalso. now apply (proj1 H1 eq_refl).
  - rewrite (proj2 H1 Hd). destruct (k2 p); [|reflexivity]. exfalso. now apply Hd, H2.
Qed.
End Children.

(* ---------------------------------------------------------------- *)
(** ** Elements that are read as a whole *)
Section Whole.
Variables sp wd dg : N -> bool.
Variable lower : str -> str.
Variable compiles : str -> bool.
Variable parse_int : str -> option Z.
Variable show_int : Z -> str.
Variable json_concat : str -> res (list (list source)).
Variable json_range : str -> res (list range_item).
Variable re_group : str -> str -> option ostr.
Variable re_spans : str -> str -> list (Z * Z).
Variable xpath : npath -> str -> res (list npath).
Variable content_excluding : list npath -> npath -> str.
Variable root : node.
Hypothesis sp_ws4 : forall c, ws4 c = true -> sp c = true.
Let T := xml_targets sp wd dg lower compiles parse_int show_int json_concat json_range re_group re_spans xpath content_excluding root.
(** there are no child expressions; or only [.//*] and text is to be kept together: by the
    option or, without it, because the element has text of its own *)
Definition whole (m : options) (k : str) (e : npath) : Prop :=
  parse_xpaths sp (option_of m k ".children") = [] \/
  (parse_xpaths sp (option_of m k ".children") = [u ".//*"] /\
   match option_of m k ".use-raw-text" with
   | Some ((_ :: _) as s) => means lower s true
   | _ => exists n c, node_at root e = Some n /\ In c (own_text n) /\ sp c = false
   end).
(** no other options that change the text of a field *)
Definition only_children (m : options) (k : str) : Prop :=
  forall s, In s [".ignore"; ".regex"; ".extract-regex"; ".children.concat"; ".children.range"; ".unmatched-parent-text"]%string -> option_of m k s = None.
(** one text, or several, the longest first *)
Definition value_of (l : list str) (v : list tvalue) : Prop :=
  match l with
  | [] => v = []
  | [s] => v = [VOne s]
  | _ => exists k, v = [VMany k] /\ Permutation k l /\ StronglySorted (fun a b => length b <= length a) k
  end.
Definition read_as (m : options) (k : str) (e : npath) (v : list tvalue) : Prop :=
  (whole m k e /\ value_of (filter nonempty [text_of_element sp wd root e]) v) \/
  (~ whole m k e /\ exists found leaves inner, found_by xpath (parse_xpaths sp (option_of m k ".children")) e found /\
     those (fun p => ~ has_child_in found p) found leaves /\ those (has_child_in found) found inner /\
     value_of (filter nonempty (map (clean_text sp root) leaves ++ flat_map (fun p => map (strip sp) (immediate_text root p)) inner)) v).
Lemma those_all l l' : those (fun p => ~ In p []) l l' -> l' = l.
Proof.
  intros (keep & -> & Hk). induction l as [|p l IH]; [reflexivity|]. cbn [filter]. rewrite (proj2 (Hk p (or_introl eq_refl))) by (intros []). f_equal. apply IH. intros; apply Hk; now right.
Qed.
Lemma value_of_spec l : (forall s, In s l -> s <> []) -> value_of l (match text_value l with Some v => [v] | None => [] end).
Proof.
  intros H. destruct l as [|x [|y l]]; [reflexivity|reflexivity|]. destruct (text_value (x :: y :: l)) as [v|] eqn:E; [|discriminate].
  pose proof (text_value_spec _ _ E ltac:(discriminate)) as [P Q]. cbn [text_value] in E. assert (v = VMany (longest_first (x :: y :: l))) as -> by congruence.
  cbn [value_of]. eexists. split; [reflexivity|]. split; [exact Q|exact (proj2 P)].
Qed.
(** The values of a field: the whole text of a found element, or the texts of its children. *)
Theorem C89_whole : forall xm tag l m k, T xm tag = Ok l -> dict_get tag xm = Some m -> NoDup (map fst m) -> In k (map fst m) -> plain_name k -> only_children m k ->
  exists es vs, found_by xpath (parse_xpaths sp (dict_get k m)) [] es /\ Forall2 (read_as m k) es vs /\
    Permutation (map tg_value (filter (fun t => streq (tg_name t) k) l)) (concat vs).
Proof using sp_ws4.
  intros xm tag l m k H Hm Hnd Hk Hp Hpl.
  destruct (targets_of_field _ _ _ _ _ _ _ _ _ _ _ _ _ _ _ _ _ _ k H Hm Hnd) as (x & Hx & P); [now apply field_names_spec|].
  apply fents_inv in Hx as (f & es & ls & Hf & He & HF & ->). pose proof (conf_fields _ _ _ _ _ _ _ _ _ Hf) as (Hxp & Hig & Hch & Hre & Hex & _ & _ & _ & _ & Hun & _). rewrite Hxp in He.
  assert (O : forall s, In s [".ignore"; ".regex"; ".extract-regex"; ".children.concat"; ".children.range"; ".unmatched-parent-text"]%string -> option_of m k s = None) by exact Hpl.
  rewrite (O ".ignore"%string) in Hig by (cbn; tauto). rewrite (O ".regex"%string) in Hre by (cbn; tauto). rewrite (O ".extract-regex"%string) in Hex by (cbn; tauto).
  rewrite (O ".unmatched-parent-text"%string) in Hun by (cbn; tauto). cbn in Hig, Hre, Hex. assert (Un : fc_unmatched f = false) by (destruct (fc_unmatched f); [destruct Hun as [Hun _]; now specialize (Hun eq_refl)|reflexivity]).
  assert (W : fc_concat f = [] /\ fc_range f = [] /\
     (fc_raw f = match option_of m k ".use-raw-text" with Some ((_ :: _) as s) => match strtobool lower s with Ok b => Some b | Err _ => None end | _ => None end /\
      match option_of m k ".use-raw-text" with Some ((_ :: _) as s) => exists b, strtobool lower s = Ok b | _ => True end)).
  { unfold field_conf in Hf. change (opt m k) with (option_of m k) in Hf. rewrite (O ".children.concat"%string), (O ".children.range"%string) in Hf by (cbn; tauto). cbn [or_default bind] in Hf.
    destruct (compiled compiles (option_of m k ".regex")) as [r1|]; [|discriminate]. cbn [bind] in Hf. destruct (compiled compiles (option_of m k ".extract-regex")) as [r2|]; [|discriminate]. cbn [bind] in Hf.
    match type of Hf with bind ?y _ = _ => destruct y as [pr|]; [|discriminate] end. cbn [bind] in Hf.
    destruct (option_of m k ".use-raw-text") as [[|c0 s0]|]; cbn [bind] in Hf; [injection Hf as <-; cbn; auto| |injection Hf as <-; cbn; auto].
    destruct (strtobool lower (c0 :: s0)) as [b0|] eqn:Eb; [|discriminate]. cbn [bind] in Hf. injection Hf as <-. cbn [fc_concat fc_range fc_raw]. repeat split. now exists b0. }
  destruct W as (Hc & Hr & Hraw & Hrd). clear Hun Hf.
  assert (G : forall e, uses_children sp root f e = false <-> whole m k e).
  { intros e. unfold uses_children, whole. rewrite Hch, Hraw. destruct (parse_xpaths sp (option_of m k ".children")) as [|y [|z ys]].
    - split; [now left|reflexivity].
    - change wildcard with (u ".//*"). destruct (streq y (u ".//*")) eqn:Ey; cbn [negb orb].
      + apply streq_true in Ey. subst y. rewrite negb_false_iff.
        assert (Q : (match node_at root e with Some n => contains_raw_text sp n | None => false end = true) <-> exists n c, node_at root e = Some n /\ In c (own_text n) /\ sp c = false).
        { destruct (node_at root e) as [n|]; [rewrite C61_contains_raw_text|]; split.
          - intros (c & H1 & H2). now exists n, c.
          - intros (n' & c & [= <-] & H1 & H2). now exists c.
          - discriminate.
          - intros (n' & c & [=] & _). }
        destruct (option_of m k ".use-raw-text") as [[|c0 s0]|]; [rewrite Q| |rewrite Q]; try (split; [intros X; right; now split|intros [X|[_ X]]; [discriminate|exact X]]).
        destruct Hrd as [b0 Eb]. rewrite Eb. apply strtobool_iff in Eb as Eb'. split.
        * intros ->. right. now split.
        * intros [X|[_ X]]; [discriminate|]. apply strtobool_iff in X. congruence.
      + apply streq_false in Ey. split; [discriminate|]. intros [X|[[= X] _]]; [discriminate|contradiction].
    - split; [discriminate|]. intros [X|[X _]]; discriminate. }
  enough (E : exists vs, Forall2 (read_as m k) es vs /\ map tg_value (map snd (concat ls)) = concat vs).
  { destruct E as (vs & E1 & E2). exists es, vs. split; [exact He|]. split; [exact E1|]. rewrite <- E2. exact (Permutation_map tg_value P). }
  clear He P H Hxp. induction HF as [|e x es ls Hx HF IH]; [exists []; split; [constructor|reflexivity]|]. destruct IH as (vs & I1 & I2).
  rewrite concat_cons, !map_app, I2. clear I2.
  apply ents_inv in Hx as (subs & texts & st & _ & Ht & ->). unfold with_pattern, with_extract. rewrite Hre, Hex.
  assert (K : read_as m k e (match text_value texts with Some v => [v] | None => [] end) /\ st = []).
  { destruct (uses_children sp root f e) eqn:Eu.
    - assert (Ne : forall s, In s texts -> s <> []) by (eapply extract_texts_nonempty; exact Ht).
      apply (C89_texts _ _ _ _ _ _ _ sp_ws4) in Ht as (cvs & cns & rvs & rns & found & other & leaves & inner & base & Ec & Er & Ef & Ho & Hl & Hi & Hb & Ht).
      rewrite Hc in Ec. rewrite Hr in Er. cbn in Ec, Er. injection Ec as <- <-. injection Er as <- <- <-. split; [|reflexivity]. cbv zeta in Ht. rewrite Un in Ht. cbn [app map] in Hb. subst base.
      apply those_all in Ho. subst other. right. split; [intros X; apply G in X; congruence|]. exists found, leaves, inner. rewrite Hch in Ef. repeat (split; [assumption|]).
      pose proof (value_of_spec texts Ne) as Q. rewrite Ht in Q at 1. exact Q.
    - destruct Ht as (ex & Hfo & -> & ->). split; [|reflexivity]. left. split; [now apply G|]. rewrite Hig in Hfo. destruct Hfo as (ls0 & Hfo & ->). inversion Hfo; subst. cbn [concat].
      assert (E : strip_all sp [raw_content wd root [] e] = [text_of_element sp wd root e]).
      { unfold strip_all, raw_content, text_of_element. cbn [map]. destruct (node_at root e); reflexivity. }
      rewrite E. apply value_of_spec. intros s Hs. now apply truthy_in in Hs. }
  destruct K as [K ->]. exists ((match text_value texts with Some v => [v] | None => [] end) :: vs). split; [now constructor|]. cbn [indexed length seq map combine concat]. rewrite app_nil_r.
  f_equal. destruct (text_value texts); reflexivity.
Qed.
End Whole.

(* ---------------------------------------------------------------- *)
(** ** Examples *)
Definition int_of (s : str) : option Z := if streq s (u "2") then Some 2%Z else if streq s (u "4") then Some 4%Z else None.
Definition conf_of (xs : list str) (c : list (list source)) (r : list range_item) (unmatched : bool) : fconf :=
  mkFconf [] [] xs c r unmatched None None 0 None false false false [].
Definition exch (find : npath -> str -> res (list npath)) (out : list npath -> npath -> str) (doc : node) :=
  extract_children ascii_space ascii_digit int_of digit_str find out doc.
(** a citation with a range of pages, a number and a title with a part *)
Definition cite : node := El (u "In: ") [El (u "Big ") [El (u "data") [] (u " now")] (u ", "); leaf_el "2"; leaf_el " 4 "; leaf_el "9"; leaf_el "b"] [].
Definition cite_find (e : npath) (x : str) : res (list npath) :=
  if streq x (u ".//*") then Ok [e ++ [0]; e ++ [0; 0]; e ++ [1]; e ++ [2]; e ++ [3]; e ++ [4]]
  else if streq x (u "./first") then Ok [e ++ [1]] else if streq x (u "./last") then Ok [e ++ [2]]
  else if streq x (u "./volume") then Ok [e ++ [3]] else if streq x (u "./issue") then Ok [e ++ [4]] else Ok [].
Definition by_xpath (x : string) : source := mkSource (Some (u x)) None.
Definition fixed (v : string) : source := mkSource None (Some (u v)).
Example C89_ex :
  exch cite_find (fun _ _ => u " In: ") cite [] (conf_of [u ".//*"] [[by_xpath "./volume"; fixed "("; by_xpath "./issue"; fixed ")"]; [by_xpath "./no"; fixed "x"]]
    [mkRangeItem (by_xpath "./first") (by_xpath "./last") false; mkRangeItem (by_xpath "./volume") (by_xpath "./issue") true] true)
  = Ok ([u "data"; u "9(b)"; u "2"; u "3"; u "4"; u "Big"; u "now"; u "In:"], []).
Proof. vm_compute. reflexivity. Qed.
Example C89_ex_standalone :
  exch cite_find all_content cite [] (conf_of [u "./issue"] [] [mkRangeItem (by_xpath "./first") (by_xpath "./last") true] false) = Ok ([u "b"], [u "2"; u "3"; u "4"]).
Proof. vm_compute. reflexivity. Qed.
Example C89_ex_wildcard : all_below cite [] [[0]; [0; 0]; [1]; [2]; [3]; [4]] /\
  exch cite_find all_content cite [] (conf_of [u ".//*"] [] [] false) = Ok ([u "data"; u "2"; u "4"; u "9"; u "b"; u "Big"; u "now"], []).
Proof.
  split; [|vm_compute; reflexivity]. split; [repeat constructor; cbn; intuition discriminate|]. intros p. split.
  - intros H. cbn in H. repeat (destruct H as [<-|H]; [split; [eexists; split; [|reflexivity]; discriminate|do 3 eexists; reflexivity]|]). destruct H.
  - intros [(r & Hr & ->) (t & cs & tl & H)]. cbn [app] in *. cbn [In].
    destruct r as [|i r]; [easy|]. cbn [node_at cite nchildren] in H.
    destruct i as [|[|[|[|[|i]]]]]; cbn [nth_error] in H; [destruct r as [|j r]; [tauto|]| | | | |destruct i; discriminate].
    + cbn [node_at nchildren] in H. destruct j as [|[|]]; cbn [nth_error] in H; try discriminate. destruct r as [|k r]; [tauto|]. cbn in H. destruct k; discriminate.
    + destruct r as [|k r]; [tauto|cbn in H; destruct k; discriminate].
    + destruct r as [|k r]; [tauto|cbn in H; destruct k; discriminate].
    + destruct r as [|k r]; [tauto|cbn in H; destruct k; discriminate].
    + destruct r as [|k r]; [tauto|cbn in H; destruct k; discriminate].
Qed.
(** an element with text of its own and one without *)
Definition two_names : node := El [] [El [] [leaf_el "Smith"; leaf_el "Ann"] []; El [] [El (u "J ") [] (u "and "); leaf_el "Jones"] []] [].
Definition names_find (e : npath) (x : str) : res (list npath) :=
  if streq x (u ".//name") then Ok [[0]; [1]] else if streq x (u ".//*") then Ok [e ++ [0]; e ++ [1]] else Ok [].
Definition names_section : options := [(u "author", u ".//name"); (u "author.children", u ".//*")].
Example C89_ex_whole :
  ex_targets names_find all_content two_names [(u "article", names_section)] (u "article") =
    Ok [mkTgt (u "author") (VMany [u "Smith"; u "Ann"]) false false false []; mkTgt (u "author") (VOne (u "J and Jones")) false false false []] /\
  only_children names_section (u "author") /\
  whole ascii_space (fun s => s) two_names names_section (u "author") [1] /\ ~ whole ascii_space (fun s => s) two_names names_section (u "author") [0].
Proof.
  split; [vm_compute; reflexivity|]. split; [intros s H; cbn in H; repeat (destruct H as [<-|H]; [reflexivity|]); destruct H|]. split.
  - right. split; [reflexivity|]. cbn. eexists. exists 97%N. split; [reflexivity|]. split; [cbn; tauto|reflexivity].
  - intros [H|[_ H]]; [discriminate|]. cbn in H. destruct H as (n & c & [= <-] & H & _). destruct H.
Qed.
(** Only direct parents are left out: the text of an element is there twice if it and
    the parent of its parent are found but its parent is not. *)
Theorem C89_twice_refuted : exists find doc f texts c, (forall found, found_by find (fc_children f) [] found -> NoDup found) /\
  exch find all_content doc [] f = Ok (texts, []) /\ count_occ N.eq_dec (content doc []) c < count_occ N.eq_dec (concat texts) c.
Proof.
  exists (fun _ _ => Ok [[0]; [0; 0; 0]]), (El [] [El [] [El [] [leaf_el "x"] []] []] []), (conf_of [u "x"] [] [] false), [u "x"; u "x"], 120%N.
  split; [|split; [reflexivity|vm_compute; lia]]. intros found H. destruct H as (ls & H & ->). inversion H as [|? ? ? ? E H']; subst. injection E as <-. inversion H'; subst.
  cbn. repeat constructor; cbn; intuition discriminate.
Qed.
(** A digit that is no decimal digit: [isdigit] holds, [int] raises. *)
Theorem C89_digits_refuted : exists dg find doc f, extract_children ascii_space dg int_of digit_str find all_content doc [] f = Err ValueError /\
  (forall c, ascii_digit c = true -> dg c = true) /\ fc_range f <> [] /\ forall e x, exists l, find e x = Ok l.
Proof.
  exists (fun c => ascii_digit c || (c =? 178)%N), (fun _ _ => Ok [[0]]), (El [] [El [178%N] [] []] []), (conf_of [] [] [mkRangeItem (by_xpath "./a") (by_xpath "./b") false] false).
  split; [vm_compute; reflexivity|]. split; [intros c ->; reflexivity|]. split; [discriminate|]. intros. eexists. reflexivity.
Qed.

Print Assumptions C89_sources.
Print Assumptions C89_concat.
Print Assumptions C89_range.
Print Assumptions C89_texts.
Print Assumptions C89_wildcard.
Print Assumptions C89_whole.
Print Assumptions C89_twice_refuted.
Print Assumptions C89_digits_refuted.
