(** C79: annotators invent no tags *)
From Verif Require Import Base ModelTags ProofTags ModelTokenize ModelXml ModelTei ModelTeiDoc SpecTeiWrite SpecTeiDoc ProofTeiDoc
  ModelJoined ModelExtend ModelTarget ModelFuzzyMatch ModelWordMatch ModelPostAnnot ModelLineNumbers ModelExpand ModelSegmentation PropSegmentation
  ModelReference ModelSimpleMatch PropSimpleMatch ModelMatch ModelAnnotators PropAnnotators.
Open Scope nat_scope.

(* ---------------------------------------------------------------- *)
(** ** Specification *)
(** a tag with the value [v] on some token at a level, given or remembered *)
Definition carries (lv : level) (d : doc) (v : str) : Prop :=
  exists l t, In l d /\ In t l /\ (value (given lv t) = Some v \/ value (remembered lv t) = Some v).
(** the value of a tag written as [n], with or without prefix of its own *)
Definition spelled (n v : str) : Prop := v = n \/ value (Some n) = Some v.
(** the names an annotator may write at a level *)
Definition writes (lv : level) (a : annotator) (n : str) : Prop :=
  match a, lv with
  | ASimple _ _ ts, LMain => In n (map an_name ts)
  | ASimple c _ ts, LSub | ASubTagOnly c _ ts, LSub => cf_use_sub c = true /\ In n (map fst (flat_map an_subs ts))
  | AMatching _ _ _ _ _ ts, LMain => In n (map ma_name ts)
  | AMatching _ _ _ _ _ ts, LSub => In n (map ms_name (flat_map ma_subs ts))
  | ALineNumbers c, LMain => n = c_tag c
  | ASegmentation c preserve, LMain =>
      In n (map fst (sc_mapping c)) \/ In n (map u ["front"; "annex"; "page"; "headnote"]%string)
      \/ (n = u "reference" /\ sc_no_merge_references c = false) \/ (n = u "body" /\ preserve = false)
  | AReferences c, LSub => In n (map snd (rc_map c))
  | AMergeGroup group LMain, LMain | AMergeGroup group LSub, LSub => exists v, group v = Some n
  | AReplaceTags m, LMain => In (Some n) (map snd m)
  | _, _ => False
  end.

(* ---------------------------------------------------------------- *)
(** ** Proof: a set of values per level that is never left *)
Lemma dict_get_In {A} k (x : A) m : dict_get k m = Some x -> In (k, x) m.
Proof.
  induction m as [|[k' y] m IH]; cbn [dict_get]; [discriminate|]. destruct (streq k k') eqn:E; [|right; auto].
  apply streq_true in E. intros [= ->]. left. congruence.
Qed.
Definition okv (P : str -> Prop) (o : ostr) : Prop := forall v, value o = Some v -> P v.
Lemma okv_none P : okv P None.
Proof. intros v [=]. Qed.
Lemma value_add_b v : value (add_tag_prefix (Some v) (Some B_PREFIX)) = Some v.
Proof. destruct v; reflexivity. Qed.
Lemma value_add_i v : value (add_tag_prefix (Some v) (Some I_PREFIX)) = Some v.
Proof. destruct v; reflexivity. Qed.
Lemma okv_add_bi (P : str -> Prop) o p : p = B_PREFIX \/ p = I_PREFIX -> (forall v, o = Some v -> P v) -> okv P (add_tag_prefix o (Some p)).
Proof.
  intros Hp H v E. destruct o as [w|]; [|destruct Hp as [-> | ->]; discriminate]. apply H. f_equal.
  destruct Hp as [-> | ->]; [rewrite value_add_b in E|rewrite value_add_i in E]; congruence.
Qed.
Lemma okv_inside P t : okv P t -> okv P (to_inside_tag t).
Proof.
  intros H. unfold to_inside_tag. destruct (split_tag_prefix t) as [p v] eqn:E. destruct (ostreq p _); [|exact H].
  apply okv_add_bi; [now right|]. intros w ->. apply H. unfold value. now rewrite E.
Qed.
Lemma okv_oor P a b : okv P a -> okv P b -> okv P (oor a b).
Proof. intros A B. unfold oor. now destruct (truthy a). Qed.
Lemma okv_spelled (P : str -> Prop) n o : (forall v, spelled n v -> P v) -> o = Some n \/ o = add_tag_prefix (Some n) (Some B_PREFIX) \/ o = add_tag_prefix (Some n) (Some I_PREFIX) -> okv P o.
Proof.
  intros H [-> |[-> | ->]] v E; apply H.
  - now right.
  - rewrite value_add_b in E. left. congruence.
  - rewrite value_add_i in E. left. congruence.
Qed.

Section Lists.
Variable P : str -> Prop.
Notation ok := (okv P).
Lemma hd_ok l : Forall ok l -> ok (hd None l).
Proof. intros H. destruct l; [apply okv_none|now inversion H]. Qed.
Lemma last_ok l : Forall ok l -> ok (last l None).
Proof.
  induction l as [|a l IH]; intros H; [apply okv_none|]. inversion H as [|? ? Ha Hl]; subst. destruct l; [exact Ha|]. cbn [last]. now apply IH.
Qed.
Lemma repeat_ok x n : ok x -> Forall ok (repeat x n).
Proof. intros H. apply Forall_forall. intros y Hy. apply repeat_spec in Hy. now subst. Qed.
Lemma value_ok t v : ok t -> snd (split_tag_prefix t) = v -> forall w, v = Some w -> P w.
Proof. intros H E w ->. apply H. exact E. Qed.
Lemma begin_inside_ok t n : ok t -> Forall ok (to_begin_inside_tags t n).
Proof.
  intros H. destruct n as [|n]; [constructor|]. unfold to_begin_inside_tags. destruct (split_tag_prefix t) as [p v] eqn:E.
  assert (V : forall w, v = Some w -> P w) by (apply (value_ok t v H); now rewrite E).
  destruct (negb _); [now apply repeat_ok|]. constructor; [|apply repeat_ok]; apply okv_add_bi; auto.
Qed.
Lemma merged_ok l : Forall ok l -> Forall ok (merged_tags l).
Proof.
  intros H. destruct l as [|t l]; [constructor|]. unfold merged_tags. destruct (split_tag_prefix t) as [p v] eqn:E. destruct (negb _); [exact H|].
  inversion H as [|? ? Ht Hl]; subst. constructor; [exact Ht|]. apply repeat_ok, okv_add_bi; [now right|]. apply (value_ok t v Ht). now rewrite E.
Qed.
Lemma group_by_ok {A} (Q : A -> Prop) same l : Forall Q l -> Forall (Forall Q) (group_by same l).
Proof.
  induction 1 as [|x l Hx _ IH]; [constructor|]. cbn [group_by]. destruct (group_by same l) as [|[|y g] gs]; [repeat constructor; auto| |].
  - inversion IH; subst. repeat constructor; auto.
  - inversion IH as [|? ? Hg Hgs]; subst. inversion Hg; subst. destruct (same x y); repeat constructor; auto.
Qed.
Lemma extend_go_ok em mm de dm groups : Forall (Forall ok) groups -> forall prev chg, (forall g, prev = Some g -> Forall ok g) ->
  Forall (Forall ok) (extend_go em mm de dm prev chg groups).
Proof.
  induction 1 as [|g0 rest Hg Hr IH]; intros prev chg Hp; [constructor|]. cbn [extend_go].
  assert (G : Forall ok (if chg then inside_first g0 else g0)).
  { destruct chg; [|exact Hg]. destruct Hg; constructor; auto. now apply okv_inside. }
  set (g := if chg then _ else _) in *. clearbody g.
  destruct (extend_group em mm de dm prev g (hd_error rest)) as [r chg'] eqn:E. constructor; [|apply IH; intros g' [= <-]; exact G].
  assert (L : ok (match prev with Some g => last g None | None => None end)).
  { destruct prev as [p|]; [|apply okv_none]. apply last_ok. now apply Hp. }
  assert (N : ok (match hd_error rest with Some g => hd None g | None => None end)).
  { destruct Hr as [|n rest Hn Hr]; [apply okv_none|]. cbn [hd_error]. now apply hd_ok. }
  unfold extend_group in E. set (pl := match prev with Some g => last g None | None => None end) in *. clearbody pl.
  set (nf := match hd_error rest with Some g => hd None g | None => None end) in *.
  assert (N' : ok nf) by exact N. clearbody nf. revert E.
  destruct (split_tag_prefix nf) as [np nv]. destruct (truthy _); [intros [= <- _]; exact G|].
  destruct prev, (hd_error rest); [destruct (_ && _)|destruct (negb _); [|destruct (Nat.ltb _ _)]|destruct (negb _); [|destruct (Nat.ltb _ _)]|];
    intros [= <- _]; auto using repeat_ok, okv_inside, begin_inside_ok.
Qed.
Lemma extended_ok em mm de dm tags : Forall ok tags -> Forall ok (extended_line_tags em mm de dm tags).
Proof.
  intros H. unfold extended_line_tags. apply Forall_concat. apply extend_go_ok; [|discriminate].
  apply Forall_map. eapply Forall_impl; [|apply group_by_ok, H]. intros g Hg. unfold merge_same. destruct (enabled _ _ _); [now apply merged_ok|exact Hg].
Qed.
Notation rok := (fun x : rtok => ok (rt_tag x)).
Lemma rtags_ok (g : list rtok) : Forall rok g -> Forall ok (map rt_tag g).
Proof. intros H. now apply Forall_map. Qed.
Lemma prefix_ok search regexes enabled groups : Forall (Forall rok) groups -> forall chg r,
  prefix_go search regexes enabled chg groups = Ok r -> Forall ok r.
Proof.
  induction 1 as [|g0 rest Hg Hr IH]; intros chg r H; cbn [prefix_go] in H; [injection H as <-; constructor|].
  assert (G : Forall rok (if chg then rinside_first g0 else g0)).
  { destruct chg; [|exact Hg]. destruct Hg; constructor; auto. now apply okv_inside. }
  set (g := if chg then _ else _) in *. clearbody g.
  destruct (prefix_group search regexes enabled g (hd_error rest)) as [[ts c]|] eqn:E; [|discriminate]. cbn [bind fst snd] in H.
  destruct (prefix_go _ _ _ c rest) as [r'|] eqn:E'; [|discriminate]. injection H as <-. apply Forall_app. split; [|eapply IH; exact E'].
  unfold prefix_group in E.
  assert (N : ok (match hd_error rest with Some (x :: _) => rt_tag x | _ => None end)).
  { destruct Hr as [|[|n g'] rest Hn Hr]; try apply okv_none. now inversion Hn. }
  destruct (split_tag_prefix _) as [np nv]. destruct nv as [v|]; [|injection E as <- _; now apply rtags_ok].
  destruct (_ || _); [injection E as <- _; now apply rtags_ok|]. destruct (join_with_index_ranges _ _ _ _) as [j|]; [|discriminate].
  cbn [bind] in E. destruct (dict_get v regexes); [|discriminate]. destruct (search _ _); [|injection E as <- _; now apply rtags_ok].
  destruct (length _); injection E as <- _; [now apply rtags_ok|]. apply Forall_app. split; [apply repeat_ok, okv_none|].
  constructor; [exact N|]. apply repeat_ok, okv_inside, N.
Qed.
Lemma suffix_ok enabled groups : Forall (Forall rok) groups -> forall prev r, (forall g, prev = Some g -> Forall rok g) ->
  suffix_go enabled prev groups = Ok r -> Forall ok r.
Proof.
  induction 1 as [|g rest Hg Hr IH]; intros prev r Hp H; cbn [suffix_go] in H; [injection H as <-; constructor|].
  destruct (suffix_group enabled prev g) as [ts|] eqn:E; [|discriminate]. cbn [bind] in H.
  destruct (suffix_go enabled (Some g) rest) as [r'|] eqn:E'; [|discriminate]. injection H as <-.
  apply Forall_app. split; [|eapply IH; [|exact E']; intros g' [= <-]; exact Hg].
  unfold suffix_group in E.
  assert (N : ok (match prev with Some (x :: _) => rt_tag x | _ => None end)).
  { destruct prev as [[|x p]|]; try apply okv_none. specialize (Hp _ eq_refl). now inversion Hp. }
  destruct (strip_tag_prefix _) as [v|]; [|injection E as <-; now apply rtags_ok].
  destruct (_ || _); [injection E as <-; now apply rtags_ok|]. destruct (join_with_index_ranges _ _ _ _) as [j|]; [|discriminate].
  cbn [bind] in E. destruct (negb _); [injection E as <-; now apply rtags_ok|].
  destruct (length _); injection E as <-; [now apply rtags_ok|]. constructor; [now apply okv_inside|].
  apply Forall_app. split; apply repeat_ok; [now apply okv_inside|apply okv_none].
Qed.
Lemma etal_ok etal enabled groups : Forall (Forall ok) groups -> forall accepted, ok accepted -> Forall ok (etal_go etal enabled accepted groups).
Proof.
  induction 1 as [|g rest Hg Hr IH]; intros acc Ha; cbn [etal_go]; [constructor|].
  destruct (_ || _).
  - apply Forall_app. split; [exact Hg|]. apply IH. destruct (match _ with Some x => mem x enabled | None => false end); [now apply hd_ok|].
    destruct (truthy _); [apply okv_none|exact Ha].
  - constructor; [exact Ha|]. apply Forall_app. split; [apply repeat_ok, okv_inside, Ha|now apply IH].
Qed.
Lemma map_tag_ok m t : (forall n v, In n (map snd m) -> spelled n v -> P v) -> ok t -> ok (map_tag m t).
Proof.
  intros Hm H. unfold map_tag. destruct (split_tag_prefix t) as [p v] eqn:E.
  pose proof (split_cases t) as Hc. rewrite E in Hc.
  assert (V : forall w, v = Some w -> P w) by (apply (value_ok t v H); now rewrite E).
  destruct v as [[|c w]|].
  - destruct p as [[|]|]; intros x Hx; apply V; cbn in Hx; congruence.
  - destruct (dict_get (c :: w) m) as [y|] eqn:D.
    + apply dict_get_In in D. apply (in_map snd) in D. cbn in D. apply (okv_spelled P y); [intros z; now apply Hm|].
      destruct Hc as [(q & -> & [= -> _])|[(q & -> & [= -> _])|([= -> _] & _)]]; [right; now left|right; now right|left; reflexivity].
    + destruct Hc as [(q & -> & [= -> _])|[(q & -> & [= -> _])|([= -> <-] & _)]]; [apply okv_add_bi; auto|apply okv_add_bi; auto|exact H].
  - destruct p as [[|]|]; apply okv_none.
Qed.
End Lists.

Section Invariant.
Variable P : level -> str -> Prop.
Definition okt (t : tok) : Prop := forall lv, okv (P lv) (given lv t) /\ okv (P lv) (remembered lv t).
Definition okd (d : doc) : Prop := Forall (Forall okt) d.
Lemma okt_shown lv t : okt t -> okv (P lv) (tag_or_preserved lv t).
Proof. intros H. destruct (H lv). unfold tag_or_preserved. destruct lv; now apply okv_oor. Qed.
Lemma okt_set_only lv v t : okv (P lv) v -> okt t -> okt (set_tag_only lv v t).
Proof. intros Hv H lv'. pose proof (H lv') as [A B]. destruct lv, lv'; cbn in *; auto. Qed.
Lemma okt_forget lv t : okt t -> okt (set_preserved_tag lv None t).
Proof. intros H lv'. pose proof (H lv') as [A B]. destruct lv, lv'; cbn in *; auto using okv_none. Qed.
Lemma ok_clear lv j l : Forall okt l -> Forall okt (clear_same_preserved lv j l).
Proof.
  intros H. unfold clear_same_preserved. destruct (nth_error l j) as [t0|]; [|exact H]. destruct (truthy _); [|exact H].
  apply Forall_map. eapply Forall_impl; [|exact H]. intros t Ht. destruct (ostreq _ _); [now apply okt_forget|exact Ht].
Qed.
Lemma ok_update {A} (Q : A -> Prop) f l : (forall a, Q a -> Q (f a)) -> forall n, Forall Q l -> Forall Q (update_nth n f l).
Proof. intros Hf n H. revert n. induction H as [|a l Ha Hl IH]; intros [|n]; cbn [update_nth]; constructor; auto. Qed.
Section Sp.
Variable sp : N -> bool.
Lemma ok_set_line lv j v l : okv (P lv) v -> Forall okt l -> Forall okt (set_tag_line sp lv j v l).
Proof.
  intros Hv H. unfold set_tag_line. destruct (nth_error l j) as [t|]; [|exact H].
  assert (U : Forall okt (update_nth j (set_tag_only lv v) l)) by (apply ok_update; [intros; now apply okt_set_only|exact H]).
  destruct (is_space sp t); [exact U|]. destruct (ostreq _ _); [exact U|]. destruct lv; [apply ok_clear|]; now apply ok_clear.
Qed.
Lemma ok_set lv p v d : okv (P lv) v -> okd d -> okd (set_tag sp lv p v d).
Proof. intros Hv H. apply ok_update; [|exact H]. intros l. now apply ok_set_line. Qed.
Lemma ok_combine lv ps : forall tags d, Forall (okv (P lv)) tags -> okd d ->
  okd (fold_left (fun d x => if truthy (snd x) then set_tag sp lv (fst x) (snd x) d else d) (combine ps tags) d).
Proof.
  induction ps as [|p ps IH]; intros [|t tags] d Ht Hd; cbn [combine fold_left]; auto. inversion Ht; subst. apply IH; [assumption|].
  cbn [fst snd]. destruct (truthy t); [now apply ok_set|exact Hd].
Qed.
Lemma ok_at d i j t l : okd d -> nth_error d i = Some l -> nth_error l j = Some t -> okt t.
Proof. intros H Hl Ht. unfold okd in H. rewrite Forall_forall in H. specialize (H l (nth_error_In _ _ Hl)). rewrite Forall_forall in H. eapply H, nth_error_In, Ht. Qed.
Lemma ok_main_tag d p : okd d -> okv (P LMain) (main_tag d p).
Proof.
  intros H. unfold main_tag, at_pos. destruct (nth_error d (fst p)) as [l|] eqn:El; [|apply okv_none].
  destruct (nth_error l (snd p)) as [t|] eqn:Et; [|apply okv_none]. exact (proj1 (ok_at _ _ _ _ _ H El Et LMain)).
Qed.

(** *** The preparation *)
Lemma okt_map tag_fn lv t : (forall o, okv (P lv) o -> okv (P lv) (tag_fn o)) -> okt t -> okt (map_token_tag tag_fn lv t).
Proof.
  intros Hf H. unfold map_token_tag. destruct (ostreq _ _); [exact H|]. apply okt_forget, okt_set_only; [|exact H]. apply Hf. now apply okt_shown.
Qed.
Lemma ok_map tag_fn lv d : (forall o, okv (P lv) o -> okv (P lv) (tag_fn o)) -> okd d -> okd (map_token_tags tag_fn lv d).
Proof.
  intros Hf H. apply Forall_map. eapply Forall_impl; [|exact H]. intros l Hl. apply Forall_map. eapply Forall_impl; [|exact Hl].
  intros t. now apply okt_map.
Qed.
Lemma preserve_ok lv inc exc o : okv (P lv) o -> okv (P lv) (preserve_tag_fn inc exc o).
Proof. intros H. unfold preserve_tag_fn. destruct (_ && _); [apply okv_none|]. destruct (_ && _); [apply okv_none|exact H]. Qed.
Lemma ok_prepare always preserve fields psub nosub d : okd d -> okd (prepare_document sp always preserve fields psub nosub d).
Proof.
  intros H. unfold prepare_document, prepare_tags.
  assert (H1 : okd (if nonempty always then apply_preserved_fields sp always d else d)).
  { destruct (nonempty always); [|exact H]. apply Forall_map. eapply Forall_impl; [|exact H]. intros l Hl. unfold apply_preserved_line.
    generalize (seq 0 (length l)) as js. intros js. revert l Hl. induction js as [|j js IH]; intros l Hl; [exact Hl|]. cbn [fold_left]. apply IH.
    unfold apply_preserved_at. destruct (nth_error l j) as [t|] eqn:E; [|exact Hl]. destruct (omem _ _); [|exact Hl].
    apply ok_set_line; [|exact Hl]. apply okt_shown. rewrite Forall_forall in Hl. eapply Hl, nth_error_In, E. }
  set (d1 := if nonempty always then _ else _) in *. clearbody d1.
  match goal with |- okd (if negb psub then _ ?x else if _ then _ ?x else ?x) => assert (H2 : okd x) end.
  { destruct (_ || _); apply ok_map; auto using preserve_ok, okv_none. }
  set (d2 := if preserve || _ then _ else _) in *. clearbody d2.
  destruct (negb psub); [apply ok_map; auto; intros; apply okv_none|]. destruct (nonempty nosub); [|exact H2]. apply ok_map; auto using preserve_ok.
Qed.

(** *** The annotators *)
Variable b : libs.
Lemma ok_full c lv n f : (forall v, spelled n v -> P lv v) -> okv (P lv) (full_tag c n f).
Proof.
  intros H. apply (okv_spelled _ n _ H). unfold full_tag. destruct (cf_begin_prefix c), f; auto; left; now destruct n.
Qed.
Lemma ok_loop wd lower escape re chunks all c so fuel ts d d' :
  (forall n v, so = false -> In n (map an_name ts) -> spelled n v -> P LMain v) ->
  (forall n v, cf_use_sub c = true -> In n (map fst (flat_map an_subs ts)) -> spelled n v -> P LSub v) ->
  annotate_loop sp wd lower escape re chunks all c so fuel ts d = Ok d' -> okd d -> okd d'.
Proof.
  intros Hm Hs H. revert H.
  assert (Hs' : forall n v, cf_use_sub c = true -> In n (sub_names ts) -> spelled n v -> P LSub v).
  { intros n v Hu Hn. apply Hs; [exact Hu|]. unfold sub_names in Hn. apply in_flat_map in Hn as (a & Ha & Hn). apply in_map_iff in Hn as (x & <- & Hx).
    apply in_map. apply in_flat_map. eauto. }
  apply (loop_Q sp wd lower escape re chunks all c so ts (fun d d' => okd d -> okd d')); auto using incl_refl.
  - intros d0 d1 p n f Hso H _ Hn H0. unfold set_main.
    assert (V : okv (P LMain) (full_tag c n f)) by (apply ok_full; intros v; now apply Hm).
    destruct (cf_preserve_sub c); [|apply ok_set; auto]. apply ok_update; [|exact (H H0)]. intros l. apply ok_update. intros t. now apply okt_set_only.
  - intros d0 d1 p n f Hu H _ Hn H0. apply ok_set; auto. apply ok_full. intros v. now apply Hs'.
Qed.
Lemma ok_simple wd lower escape re chunks all c so fuel ts d d' :
  (forall n v, so = false -> In n (map an_name ts) -> spelled n v -> P LMain v) ->
  (forall n v, cf_use_sub c = true -> In n (map fst (flat_map an_subs ts)) -> spelled n v -> P LSub v) ->
  simple_annotate sp wd lower escape re chunks all c so fuel ts d = Ok d' -> okd d -> okd d'.
Proof.
  intros Hm Hs. unfold simple_annotate. destruct (annotate_loop _ _ _ _ _ _ _ _ _ _ _ _) as [d1|] eqn:E; [|discriminate]. cbn [bind].
  intros [= <-] Hd. eapply ok_loop in E; eauto. destruct (cf_extend c && negb so); [|exact E].
  unfold extend_lines. generalize (line_words sp 0 d1) as pss. intros pss. clear -E. revert d1 E.
  induction pss as [|ps pss IH]; intros d1 H; [exact H|]. cbn [fold_left]. apply IH. apply ok_combine; [|exact H].
  apply extended_ok. apply Forall_map, Forall_forall. intros p _. now apply ok_main_tag.
Qed.
Lemma ok_map_tok f d : (forall t, okt t -> okt (f t)) -> okd d -> okd (map (map f) d).
Proof. intros Hf H. apply Forall_map. eapply Forall_impl; [|exact H]. intros l Hl. apply Forall_map. eapply Forall_impl; [|exact Hl]. exact Hf. Qed.
Lemma ok_sub_tag wd lower escape re chunks all c fuel ts d d' :
  (forall n v, cf_use_sub c = true -> In n (map fst (flat_map an_subs ts)) -> spelled n v -> P LSub v) ->
  sub_tag_annotate sp wd lower escape re chunks all c fuel ts d = Ok d' -> okd d -> okd d'.
Proof.
  intros Hs. unfold sub_tag_annotate. destruct (simple_annotate _ _ _ _ _ _ _ _ _ _ _ _) as [d1|] eqn:E; [|discriminate]. cbn [bind].
  intros [= <-] Hd. apply ok_map_tok; [intros t Ht; apply okt_set_only; [now apply okt_shown|exact Ht]|].
  eapply ok_simple in E; [exact E|discriminate|exact Hs|]. apply ok_map_tok; [|exact Hd]. intros t Ht. unfold clear_main.
  destruct (cf_preserve_sub c); [|apply okt_forget]; apply okt_set_only; auto using okv_none.
Qed.
Section Matching.
Variable alpha : N -> bool.
Variable lower : str -> str.
Variable blocks : str -> str -> res (list block).
Variable sf cf : fm_filter.
Variable gap : Z.
Variable prefix : bool.
Lemma ok_tag_of lv n f : (forall v, spelled n v -> P lv v) -> okv (P lv) (tag_of prefix n f).
Proof. intros H. apply (okv_spelled _ n _ H). unfold tag_of. destruct prefix, f; auto; left; now destruct n. Qed.
Definition main_ok (a : mann) : Prop := forall v, spelled (ma_name a) v -> P LMain v.
Definition subs_ok (subs : list msub) : Prop := forall s v, In s subs -> spelled (ms_name s) v -> P LSub v.
Lemma ok_apply_subs subs ps d d' : subs_ok subs -> apply_subs sp alpha lower blocks sf cf gap prefix subs ps d = Ok d' -> okd d -> okd d'.
Proof.
  intros Hs. unfold apply_subs. match goal with |- context [foldM ?g ?x ?l] => destruct (foldM g x l) as [[d1 mt]|] eqn:E; [|discriminate] end.
  cbn [bind fst]. intros [= <-] Hd.
  change (okd (fst (d1, mt))). eapply (foldM_inv (fun st => okd (fst st))); [| |exact E]; [|exact Hd].
  intros [d2 m2] a [d3 m3] Ha H1 H2. unfold apply_sub in H2. cbn [fst snd] in *.
  destruct (find_next _ _ _ _ _ _ _ _ _ _ _ _ _) as [[[ms mt'] f]|]; [|discriminate]. cbn [bind] in H2. injection H2 as <- _.
  apply (fold_inv okd); [|exact H1]. intros x y _ Hx. apply ok_set; [|exact Hx]. apply ok_tag_of. intros v. now apply Hs.
Qed.
Lemma ok_apply_matches a ms d d' : main_ok a -> subs_ok (ma_subs a) -> apply_matches sp alpha lower blocks sf cf gap prefix a ms d = Ok d' -> okd d -> okd d'.
Proof.
  intros Hm Hs. unfold apply_matches. match goal with |- context [foldM ?g ?x ?l] => destruct (foldM g x l) as [[[d1 f1] a1]|] eqn:E; [|discriminate] end.
  cbn [bind fst]. intros [= <-] Hd.
  change (okd (fst (fst (d1, f1, a1)))). eapply (foldM_inv (fun st => okd (fst (fst st)))); [| |exact E]; [|exact Hd].
  intros st m st' _ H1 H2. unfold apply_match in H2.
  assert (F : okd (fst (fst (fold_left (apply_token sp prefix (ma_name a)) (match_tokens m) st)))).
  { apply (fold_inv (fun st => okd (fst (fst st)))); [|exact H1]. intros [[d2 f2] a2] p _ H. unfold apply_token.
    destruct (truthy _); [exact H|]. cbn [fst] in *. apply ok_set; [|exact H]. apply ok_tag_of. exact Hm. }
  destruct (fold_left _ _ st) as [[d2 f2] a2]. cbn [fst] in F.
  destruct (ma_subs a) as [|s subs]; [injection H2 as <-; exact F|].
  match type of H2 with bind ?x _ = _ => destruct x as [d3|] eqn:E2; [|discriminate] end. cbn [bind] in H2. injection H2 as <-. cbn [fst].
  eapply ok_apply_subs; [|exact E2|exact F]. exact Hs.
Qed.
Definition cond_ok (cm : option (mann * list smatch)) : Prop :=
  match cm with Some (a, _) => main_ok a /\ subs_ok (ma_subs a) | None => True end.
Lemma ok_target_loop a value fuel : main_ok a -> subs_ok (ma_subs a) -> forall d cm f mt d' cm' mt', cond_ok cm ->
  target_loop sp alpha lower blocks sf cf gap prefix fuel a value d cm f mt = Ok (d', cm', mt') -> okd d -> okd d' /\ cond_ok cm'.
Proof.
  intros Hm Hs. induction fuel as [|fuel IH]; intros d cm f mt d' cm' mt' Hc H Hd; [discriminate|]. cbn [target_loop] in H.
  destruct (find_next _ _ _ _ _ _ _ _ _ _ _ _ _) as [[[found mt1] f1]|]; [|discriminate]. cbn [bind] in H.
  destruct (sorted_matches found) as [|m ms]; [injection H as <- <- _; split; [exact Hd|exact I]|].
  match type of H with bind ?x _ = _ => destruct x as [d1|] eqn:E1; [|discriminate] end. cbn [bind] in H.
  assert (L1 : okd d1).
  { destruct cm as [[ca cms]|]; [|injection E1 as <-; exact Hd]. destruct (_ <=? _)%Z; [|injection E1 as <-; exact Hd].
    destruct Hc. eapply ok_apply_matches; [| |exact E1|]; assumption. }
  match type of H with bind ?x _ = _ => destruct x as [[d2 cm2]|] eqn:E2; [|discriminate] end. cbn [bind] in H.
  assert (L2 : okd d2 /\ cond_ok cm2).
  { destruct (ma_next a); [injection E2 as <- <-; split; [exact L1|now split]|].
    match type of E2 with bind ?x _ = _ => destruct x as [d3|] eqn:E3; [|discriminate] end. cbn [bind] in E2. injection E2 as <- <-.
    split; [|exact Hc]. eapply ok_apply_matches; [| |exact E3|]; assumption. }
  destruct L2 as [L2 C2]. destruct (ma_multiple a); [eapply IH; [exact C2|exact H|exact L2]|injection H as <- <- _; auto].
Qed.
Lemma ok_matching fuel ts d d' : (forall n v, In n (map ma_name ts) -> spelled n v -> P LMain v) ->
  (forall n v, In n (map ms_name (flat_map ma_subs ts)) -> spelled n v -> P LSub v) ->
  matching_annotate sp alpha lower blocks sf cf gap prefix fuel ts d = Ok d' -> okd d -> okd d'.
Proof.
  intros Hm Hs. unfold matching_annotate. destruct (sequences _ _ _ _) as [seqs|]; [|discriminate]. cbn [bind].
  match goal with |- context [foldM ?g ?x ?l] => destruct (foldM g x l) as [st|] eqn:E; [|discriminate] end. cbn [bind]. intros [= <-] Hd.
  enough (okd (fst (fst st)) /\ cond_ok (snd (fst st))) by tauto.
  match type of E with foldM ?g (d, ?x, ?y) _ = _ => eapply (foldM_inv (fun st => okd (fst (fst st)) /\ cond_ok (snd (fst st)))); [| |exact E]; [|split; [exact Hd|exact I]] end.
  intros [[d1 c1] m1] a [[d2 c2] m2] Ha [H1 C1] H2. cbn [fst snd] in *. unfold target_step in H2.
  destruct (njstr_value _ _ _) as [v|]; [|discriminate]. cbn [bind] in H2.
  match type of H2 with bind ?x _ = _ => destruct x as [[[d3 c3] m3]|] eqn:E3; [|discriminate] end. cbn [bind] in H2. injection H2 as <- <- _.
  eapply ok_target_loop; [| |exact C1|exact E3|exact H1].
  - intros w. apply Hm. now apply in_map.
  - intros s w Hin. apply Hs. apply in_map. apply in_flat_map. eauto.
Qed.
End Matching.
Lemma ok_references search regexes c d d' : (forall n v, In n (map snd (rc_map c)) -> spelled n v -> P LSub v) ->
  annotate_references search regexes sp c d = Ok d' -> okd d -> okd d'.
Proof.
  intros Hm H Hd. unfold annotate_references in H. eapply (foldM_inv okd); [|exact Hd|exact H].
  intros d1 g d2 _ H1 H2. eapply (foldM_inv okd); [|exact H1|exact H2].
  intros d3 f d4 Hf H3 H4. unfold ref_step in H4. destruct (f _) as [ts|] eqn:E; [|discriminate]. injection H4 as <-.
  apply ok_combine; [|exact H3].
  assert (R : Forall (fun x => okv (P LSub) (rt_tag x)) (map (to_rtok sp c) (read_tokens d3 (snd g)))).
  { apply Forall_map, Forall_forall. intros t Ht. unfold read_tokens in Ht. apply in_flat_map in Ht as (p & _ & Ht).
    destruct (nth_error d3 (fst p)) as [l|] eqn:El; [|easy]. destruct (nth_error l (snd p)) as [t'|] eqn:Et; [|easy]. destruct Ht as [<-|[]].
    unfold to_rtok, rt_tag. cbn [fst]. apply map_tag_ok; [exact Hm|]. exact (proj1 (ok_at _ _ _ _ _ H3 El Et LSub)). }
  set (rs := map (to_rtok sp c) _) in *. clearbody rs. cbn in Hf. destruct Hf as [<-|[<-|[<-|[<-|[]]]]].
  - injection E as <-. apply etal_ok; [|apply okv_none]. apply group_by_ok. now apply rtags_ok.
  - eapply suffix_ok; [| |exact E]; [now apply group_by_ok|discriminate].
  - eapply prefix_ok; [|exact E]. now apply group_by_ok.
  - injection E as <-. apply extended_ok. now apply rtags_ok.
Qed.
(** *** The segmentation *)
Lemma ok_set_tokens v l : okv (P LMain) v -> Forall okt l -> Forall okt (set_line_tokens_tag sp v l).
Proof. intros Hv H. unfold set_line_tokens_tag. apply (fold_inv (Forall okt)); [|exact H]. intros x j _ Hx. now apply ok_set_line. Qed.
Lemma ok_clear_tokens l : Forall okt l -> Forall okt (clear_line_token_tags sp l).
Proof.
  intros H. unfold clear_line_token_tags. apply (fold_inv (Forall okt)); [|exact H]. intros x j _ Hx.
  destruct (nth_error x j); [|exact Hx]. destruct (truthy _); [|exact Hx]. apply ok_set_line; [apply okv_none|exact Hx].
Qed.
Definition oks (ls : list segline) : Prop := Forall (fun s => Forall okt (sl_line s)) ls.
Lemma ok_set_seg n s : (forall v, spelled n v -> P LMain v) -> Forall okt (sl_line s) -> Forall okt (sl_line (set_seg sp n s)).
Proof. intros Hn H. apply ok_set_tokens; [|exact H]. intros v Hv. apply Hn. now right. Qed.
Lemma ok_set_segs n is ls : (forall v, spelled n v -> P LMain v) -> oks ls -> oks (set_segs sp n is ls).
Proof. intros Hn H. unfold set_segs. apply (fold_inv oks); [|exact H]. intros x i _ Hx. apply ok_update; [|exact Hx]. intros s. now apply ok_set_seg. Qed.
Lemma ok_map_seg (f : segline -> segline) ls : (forall s, Forall okt (sl_line s) -> Forall okt (sl_line (f s))) -> oks ls -> oks (map f ls).
Proof. intros Hf H. apply Forall_map. eapply Forall_impl; [|exact H]. exact Hf. Qed.
Lemma ok_clear_front max ls : oks ls -> forall blk s i, oks (clear_front sp max blk s i ls).
Proof. induction 1 as [|x ls Hx _ IH]; intros blk s i; cbn [clear_front]; constructor; [destruct (_ && _); [now apply ok_clear_tokens|exact Hx]|apply IH]. Qed.
Lemma ok_segmentation dg int c preserve d : (forall n v, writes LMain (ASegmentation c preserve) n -> spelled n v -> P LMain v) ->
  okd d -> okd (segmentation sp dg int c preserve d).
Proof.
  intros Hw Hd. unfold segmentation. apply Forall_map. change (oks (segment_lines sp dg int c preserve d)). unfold segment_lines.
  assert (H : oks (map (seg_first sp c) d)).
  { apply Forall_map. eapply Forall_impl; [|exact Hd]. intros l Hl. unfold seg_first. destruct (most_common _ _) as [|[majority k] r]; [exact Hl|].
    cbn [sl_line]. destruct (segmentation_tag_of (sc_mapping c) majority) as [[|x v]|] eqn:E.
    - destruct majority; [exact Hl|now apply ok_clear_tokens].
    - destruct (_ && _); [exact Hl|]. apply ok_set_seg; [|exact Hl]. intros w. apply Hw. left.
      unfold segmentation_tag_of in E. destruct majority as [n|]; [|discriminate]. destruct (find _ _) as [e|] eqn:F; [|discriminate].
      injection E as E. apply find_some in F as [F _]. apply in_rev in F. rewrite <- E. now apply in_map.
    - destruct majority; [exact Hl|now apply ok_clear_tokens]. }
  set (ls1 := map (seg_first sp c) d) in *. clearbody ls1.
  assert (H2 : oks (clear_front_after_threshold sp (sc_front_max c) ls1)) by (unfold clear_front_after_threshold; destruct (_ =? 0)%Z; [exact H | now apply ok_clear_front]).
  set (ls2 := clear_front_after_threshold sp (sc_front_max c) ls1) in *. clearbody ls2.
  assert (H3 : oks (if preserve then apply_preserved_pages sp ls2 else ls2)).
  { destruct preserve; [|exact H2]. apply ok_map_seg; [|exact H2]. intros s Hs. destruct (_ && _); [|exact Hs]. apply ok_set_seg; [|exact Hs].
    intros v. apply Hw. right. left. cbn. tauto. }
  set (ls3 := if preserve then _ else _) in *. clearbody ls3.
  assert (H4 : oks (find_missing_pages sp dg int ls3)) by (apply ok_set_segs; [intros v; apply Hw; right; left; cbn; tauto | exact H3]).
  set (ls4 := find_missing_pages sp dg int ls3) in *. clearbody ls4.
  assert (H5 : oks (find_page_headers sp dg (sc_header_max c) ls4)).
  { unfold find_page_headers. apply (fold_inv (fun st : option Z * list segline => oks (snd st))); [|exact H4]. intros [mc ls] [text k] _ Hs. unfold header_step.
    destruct (negb _); [exact Hs|]. destruct (_ <=? _)%Z; [exact Hs|]. cbn [snd] in *. apply ok_map_seg; [|exact Hs]. intros s Hx.
    destruct (streq _ _); [|exact Hx]. apply ok_set_seg; [|exact Hx]. intros v. apply Hw. right. left. cbn. tauto. }
  set (ls5 := find_page_headers _ _ _ _) in *. clearbody ls5.
  match goal with |- context [merge_lines sp preserve ?e ?r ls5] => assert (H6 : oks (merge_lines sp preserve e r ls5)) end.
  { unfold merge_lines.
    match goal with |- context [fold_left ?f ?l ?s0] => assert (G : oks (snd (fold_left f l s0))) end.
    { apply (fold_inv (fun st : list nat * ostr * list segline => oks (snd st))); [|exact H5]. intros [[cands prev] ls] [i s] _ Hs. cbn [snd] in *. unfold merge_step.
      destruct (oin _ _); [exact Hs|]. destruct (sl_tag s) as [v|]; [|destruct (_ && _); exact Hs].
      destruct (mem v _) eqn:Em; [|destruct (truthy _); [exact Hs|destruct (_ && _); exact Hs]]. cbn [snd].
      apply ok_set_segs; [|exact Hs]. intros w. apply Hw. apply mem_In in Em.
      destruct (sc_no_merge_references c) eqn:Enm; cbn in Em.
      - right. left. cbn. tauto.
      - destruct Em as [<-|[<-|[<-|[]]]]; [right; left; cbn; tauto|right; left; cbn; tauto|right; right; left; split; [reflexivity|exact Enm]]. }
    destruct (fold_left _ _ _) as [[cands prev] ls']. cbn [snd] in G. destruct cands as [|i cands]; [exact G|]. destruct prev as [v|]; [|exact G].
    destruct (mem v _) eqn:Em; [|exact G]. apply ok_set_segs; [|exact G]. apply mem_In in Em. cbn in Em. intros w. apply Hw. right. left. cbn. tauto. }
  destruct preserve eqn:Ep; [exact H6|]. apply ok_map_seg; [|exact H6]. intros s Hs. destruct (seg_untagged s); [|exact Hs]. apply ok_set_seg; [|exact Hs].
  intros v. apply Hw. right. right. right. auto.
Qed.
(** *** The others *)
Lemma ok_reshape (l : list tok) ns : Forall okt l -> okd (reshape ns l).
Proof.
  intros H. revert l H. induction ns as [|n ns IH]; intros l H; cbn [reshape]; constructor.
  - rewrite <- (firstn_skipn n l) in H. now apply Forall_app in H.
  - apply IH. rewrite <- (firstn_skipn n l) in H. now apply Forall_app in H.
Qed.
Lemma ok_given_i v : P LMain v -> forall p, p = B_PREFIX \/ p = I_PREFIX -> okv (P LMain) (add_tag_prefix (Some v) (Some p)).
Proof. intros H p Hp. apply okv_add_bi; [exact Hp|]. now intros w [= <-]. Qed.
Lemma ok_pending v l : P LMain v -> forall first, Forall okt l -> Forall okt (tag_pending sp v first l).
Proof.
  intros Hv first H. revert first. induction H as [|t l Ht _ IH]; intros first; cbn [tag_pending]; [constructor|].
  destruct (is_space sp t); constructor; auto. apply okt_set_only; [|exact Ht]. destruct first; apply ok_given_i; auto.
Qed.
Lemma shown_value_ok lv t v : okt t -> tag_or_preserved_value lv t = Some v -> P lv v.
Proof. intros H E. exact (okt_shown lv t H v E). Qed.
Lemma ok_expand_previous enabled l : Forall okt l -> forall pending, Forall okt pending -> Forall okt (expand_previous sp enabled pending l).
Proof.
  induction 1 as [|t l Ht _ IH]; intros pending Hp; cbn [expand_previous]; [exact Hp|].
  assert (G : Forall okt (expand_previous sp enabled (pending ++ [t]) l)) by (apply IH, Forall_app; auto).
  destruct (is_space sp t); [exact G|]. destruct (tag_or_preserved_value LMain t) as [[|c v]|] eqn:E; [exact G| |exact G].
  pose proof (shown_value_ok LMain t _ Ht E) as V.
  destruct (negb _); [|destruct (negb _)]; apply Forall_app; split; auto using ok_pending.
  constructor; [|auto]. apply okt_set_only; [|exact Ht]. apply ok_given_i; auto.
Qed.
Lemma ok_expand_following enabled l : Forall okt l -> forall previous, (forall v, previous = Some v -> P LMain v) -> Forall okt (expand_following sp enabled previous l).
Proof.
  induction 1 as [|t l Ht _ IH]; intros previous Hp; cbn [expand_following]; [constructor|].
  destruct (is_space sp t); [constructor; auto|].
  assert (G : Forall okt match previous with
            | None | Some [] => t :: expand_following sp enabled previous l
            | Some v => set_tag_only LMain (add_tag_prefix (Some v) (Some (u "i-"))) t :: expand_following sp enabled previous l
            end).
  { destruct previous as [[|c v]|]; constructor; auto. apply okt_set_only; [|exact Ht]. apply ok_given_i; auto. }
  destruct (tag_or_preserved_value LMain t) as [[|c v]|] eqn:E; [exact G| |exact G].
  constructor; [exact Ht|]. apply IH. destruct (mem _ _); [|discriminate]. intros w [= <-]. exact (shown_value_ok LMain t _ Ht E).
Qed.
Lemma map_state_ok {S A} (R : S -> Prop) (Q : A -> Prop) (f : S -> A -> S * A) l :
  (forall s a, R s -> Q a -> R (fst (f s a)) /\ Q (snd (f s a))) -> forall s, R s -> Forall Q l ->
  R (fst (map_state f s l)) /\ Forall Q (snd (map_state f s l)).
Proof.
  intros H s Hs Hl. revert s Hs. induction Hl as [|a l Ha Hl IH]; intros s Hs; cbn [map_state]; [split; [exact Hs|constructor]|].
  pose proof (H s a Hs Ha) as [H1 H2]. destruct (f s a) as [s1 a']. cbn [fst snd] in *. specialize (IH s1 H1).
  destruct (map_state f s1 l) as [s2 l']. cbn [fst snd] in *. destruct IH. auto.
Qed.
Lemma ok_merge_group group lv d : (forall v n, group v = Some n -> P lv n) -> okd d -> okd (merge_group sp group lv d).
Proof.
  intros Hg Hd. unfold merge_group. apply (map_state_ok (fun cur => forall n, cur = Some n -> P lv n) (Forall okt)); [|discriminate|exact Hd].
  intros s l Hs Hl. apply (map_state_ok (fun cur => forall n, cur = Some n -> P lv n) okt); [|exact Hs|exact Hl]. intros cur t Hc Ht. unfold merge_group_step.
  destruct (is_space sp t); [auto|]. destruct (match lv with LMain => false | LSub => _ end); [auto|].
  assert (G : okt (set_tag_only lv (add_tag_prefix cur (Some I_PREFIX)) t)) by (apply okt_set_only; [apply okv_add_bi; auto|exact Ht]).
  destruct (tag_or_preserved_value lv t) as [[|c v]|]; [destruct (truthy cur); auto|split; [apply Hg|exact Ht]|destruct (truthy cur); auto].
Qed.
Lemma ok_replace (m : list (str * ostr)) d : (forall n v, In (Some n) (map snd m) -> spelled n v -> P LMain v) -> okd d -> okd (replace_tags sp m d).
Proof.
  intros Hm Hd. apply Forall_map. eapply Forall_impl; [|exact Hd]. intros l Hl. unfold replace_tags_line. apply (fold_inv (Forall okt)); [|exact Hl].
  intros x j _ Hx. unfold replace_at. destruct (nth_error x j) as [t|]; [|exact Hx]. destruct (is_space sp t); [exact Hx|].
  destruct (split_tag_prefix (tag_or_preserved LMain t)) as [p v] eqn:E. pose proof (split_cases (tag_or_preserved LMain t)) as Hc. rewrite E in Hc.
  destruct v as [[|c w]|]; [exact Hx| |exact Hx].
  match goal with |- context [dict_get ?k ?mm] => destruct (dict_get k mm) as [[n|]|] eqn:D end; [| |exact Hx]; (apply ok_set_line; [|exact Hx]).
  - apply dict_get_In in D. apply (in_map snd) in D. cbn in D. apply (okv_spelled _ n); [intros v; now apply Hm|].
    destruct Hc as [(q & _ & [= -> _])|[(q & _ & [= -> _])|([= -> _] & _)]]; [right; now left|right; now right|left; reflexivity].
  - destruct p as [[|]|]; apply okv_none.
Qed.
Lemma ok_remove d : okd d -> okd (remove_all_untagged sp d).
Proof.
  intros H. unfold remove_all_untagged.
  assert (G : Forall okt (fst (fst (fold_left (remove_line sp) d ([], true, 0))))).
  { apply (fold_inv (fun s : list tok * bool * nat => Forall okt (fst (fst s)))); [|constructor]. intros [[cur en] n] l Hl Hc. unfold remove_line.
    assert (K : Forall okt (fst (fold_left (remove_step sp) l (cur, en)))).
    { apply (fold_inv (fun s : list tok * bool => Forall okt (fst s))); [|exact Hc]. intros [c e] t Ht Hx. unfold remove_step. cbn [fst] in *.
      assert (T : okt t) by (unfold okd in H; rewrite Forall_forall in H; specialize (H l Hl); rewrite Forall_forall in H; auto).
      destruct (is_space sp t); [destruct e; cbn [fst]; [apply Forall_app; auto|exact Hx]|]. destruct (truthy _); cbn [fst]; [apply Forall_app; auto|exact Hx]. }
    destruct (fold_left (remove_step sp) l (cur, en)) as [c e]. exact K. }
  destruct (fold_left _ _ _) as [[cur en] n]. cbn [fst] in G. apply Forall_forall. intros l Hl. apply repeat_spec in Hl. now subst.
Qed.
End Sp.

Lemma ok_one b a d d' : (forall lv n v, writes lv a n -> spelled n v -> P lv v) -> annotate_one b a d = Ok d' -> okd d -> okd d'.
Proof.
  intros Hw H Hd. destruct a; cbn [annotate_one] in H.
  - eapply ok_simple; [| |exact H|exact Hd]; intros n v; [intros _; apply (Hw LMain n v)|intros Hu Hn; apply (Hw LSub n v); now split].
  - eapply ok_sub_tag; [|exact H|exact Hd]. intros n v Hu Hn. apply (Hw LSub n v). now split.
  - eapply ok_matching; [| |exact H|exact Hd]; intros n v; [apply (Hw LMain n v)|apply (Hw LSub n v)].
  - unfold annotate_line_numbers in H. destruct (find_line_numbers _ _ _ _) as [ts|]; [|discriminate]. injection H as <-.
    apply (fold_inv okd); [|exact Hd]. intros x p _ Hx. apply ok_set; [|exact Hx]. intros v Hv. apply (Hw LMain (c_tag c) v); [reflexivity|now right].
  - injection H as <-. apply ok_reshape. apply ok_expand_previous; [now apply Forall_concat|constructor].
  - injection H as <-. apply ok_reshape. apply ok_expand_following; [now apply Forall_concat|discriminate].
  - injection H as <-. apply ok_segmentation; [|exact Hd]. intros n v. apply (Hw LMain n v).
  - eapply ok_references; [|exact H|exact Hd]. intros n v. apply (Hw LSub n v).
  - injection H as <-. apply ok_merge_group; [|exact Hd]. intros v n Hg. apply (Hw lv n n); [destruct lv; now exists v|now left].
  - injection H as <-. apply ok_replace; [|exact Hd]. intros n v. apply (Hw LMain n v).
  - injection H as <-. now apply ok_remove.
Qed.
Lemma ok_all b l d d' : (forall a lv n v, In a l -> writes lv a n -> spelled n v -> P lv v) -> annotate_all b l d = Ok d' -> okd d -> okd d'.
Proof.
  intros Hw H Hd. eapply (foldM_inv okd); [|exact Hd|exact H]. intros d1 a d2 Ha H1 H2. eapply ok_one; [|exact H2|exact H1]. intros lv n v. now apply Hw.
Qed.
End Invariant.

Lemma okd_carries P d : okd P d <-> forall lv v, carries lv d v -> P lv v.
Proof.
  unfold okd, okt, okv, carries. split.
  - intros H lv v (l & t & Hl & Ht & Hv). rewrite Forall_forall in H. specialize (H l Hl). rewrite Forall_forall in H. specialize (H t Ht lv) as [A B].
    destruct Hv; auto.
  - intros H. apply Forall_forall. intros l Hl. apply Forall_forall. intros t Ht lv. split; intros v Hv; apply H; exists l, t; auto.
Qed.

(** Every tag value after the annotators was there before, or one of the annotators may
    write it. *)
Theorem C79_names b l d d' lv v : annotate_all b l d = Ok d' -> carries lv d' v ->
  carries lv d v \/ exists a n, In a l /\ writes lv a n /\ spelled n v.
Proof.
  intros H Hc. pose (P := fun lv v => carries lv d v \/ exists a n, In a l /\ writes lv a n /\ spelled n v).
  change (P lv v). revert lv v Hc. apply okd_carries. eapply (ok_all P); [|exact H|].
  - intros a lv n v Ha Hw Hs. right. eauto.
  - apply okd_carries. intros lv v Hv. now left.
Qed.
(** The preparation for annotation adds nothing. *)
Theorem C79_prepared sp always preserve fields psub nosub d lv v :
  carries lv (prepare_document sp always preserve fields psub nosub d) v -> carries lv d v.
Proof. revert lv v. apply okd_carries. apply ok_prepare. apply okd_carries. auto. Qed.
(** The whole annotation, from the loaded document. *)
Theorem C79_annotated b up lo mapping keep path o l root d d' lv v :
  load_document (lb_sp b) (lb_wd b) up lo mapping keep path root = Ok d ->
  annotated_document b up lo mapping keep path o l root = Ok d' -> carries lv d' v ->
  carries lv d v \/ exists a n, In a l /\ writes lv a n /\ spelled n v.
Proof.
  intros Hl H Hc. unfold annotated_document in H. rewrite Hl in H. cbn [bind] in H.
  destruct (C79_names _ _ _ _ _ _ H Hc) as [A|A]; [left|now right]. eapply C79_prepared. exact A.
Qed.

(** ** Examples *)
(** the names in the result of C11_ex: one was there, one is written by the second of the
    annotators *)
Example C79_ex : exists d', annotate_all ex_libs ex_annotators
    [[word "some" None; word "A" None; word "title" None]; [word "B" None]; [word "c" (Some (u "b-other"))]] = Ok d' /\
  carries LMain d' (u "other") /\ carries LMain d' (u "head") /\ writes LMain (AReplaceTags [(u "title", Some (u "head"))]) (u "head").
Proof.
  eexists. split; [vm_compute; reflexivity|]. split; [|split].
  - eexists _, _. split; [right; right; left; reflexivity|]. split; [left; reflexivity|]. left. reflexivity.
  - eexists _, _. split; [left; reflexivity|]. split; [left; reflexivity|]. left. reflexivity.
  - now left.
Qed.
(** the value of a tag may differ from the name that is written *)
Example C79_spelled_ex : exists d', annotate_all ex_libs [AReplaceTags [(u "title", Some (u "b-head"))]] [[word "A" (Some (u "title"))]] = Ok d' /\
  carries LMain d' (u "head") /\ ~ carries LMain d' (u "b-head") /\ spelled (u "b-head") (u "head").
Proof.
  eexists. split; [vm_compute; reflexivity|]. split; [|split].
  - eexists _, _. split; [left; reflexivity|]. split; [left; reflexivity|]. left. reflexivity.
  - intros (l & t & [<-|[]] & [<-|[]] & [H|H]); discriminate H.
  - right. reflexivity.
Qed.
Print Assumptions C79_names.
Print Assumptions C79_prepared.
Print Assumptions C79_annotated.
