(** C80: what was annotated can be saved *)
From Verif Require Import Base ModelTags ProofTags ModelTokenize ModelXml ProofXml ModelTei ModelTeiDoc SpecTeiRead SpecTeiWrite SpecTeiDoc ProofTeiRead ProofTeiDoc PropTokenize
  PropTeiRead PropTeiWrite PropTeiPrefix ModelMapping ModelTarget ModelFuzzyMatch ModelWordMatch ModelPostAnnot ModelLineNumbers ModelExpand ModelSegmentation ModelReference
  ModelSimpleMatch ModelMatch ModelAnnotators PropAnnotators PropNames ModelCommands PropCommands.
Open Scope list_scope.
Open Scope nat_scope.

(* ---------------------------------------------------------------- *)
(** ** Specification *)
(** [x] lies inside of [e] *)
Inductive below : xml -> xml -> Prop :=
| below_child n a text cs tl c : In c cs -> below (Elem n a text cs tl) c
| below_deeper n a text cs tl c x : In c cs -> below c x -> below (Elem n a text cs tl) x.
Definition is_elem (x : xml) : Prop := match x with Elem _ _ _ _ _ => True | Misc _ => False end.
(** no slash or brace *)
Definition no_path_chars (s : str) : Prop := forall c, In c s -> c <> 47%N /\ c <> 123%N /\ c <> 125%N.
(** An element that can be written as a step of a path: a name, possibly with a namespace,
    and at most one attribute, without slashes and braces elsewhere (in attribute values,
    say), that lxml accepts. *)
Definition plain_elem (node_ok : str -> list (str * str) -> bool) (x : xml) : Prop :=
  match x with
  | Misc _ => True
  | Elem n a _ _ _ =>
      plain_name n /\ plain_attr a /\ node_ok n a = true /\
      (exists q local, n = q ++ local /\ no_path_chars local /\ (q = [] \/ exists url, q = u "{" ++ url ++ u "}" /\ ~ In 125%N url)) /\
      Forall (fun kv => no_path_chars (fst kv) /\ no_path_chars (snd kv)) a
  end.
(** all paths of the mapping can be created *)
Definition mapping_ok (node_ok : str -> list (str * str) -> bool) (m : list (str * str)) : Prop :=
  forall k p, In (k, p) m -> creatable node_ok (split_path p).
(** a tag value with an entry in the mapping, or that is a path itself *)
Definition usable (node_ok : str -> list (str * str) -> bool) (m : list (str * str)) (v : str) : Prop :=
  v = [] \/ In v (map fst m) \/ creatable node_ok (split_path v).

(* ---------------------------------------------------------------- *)
(** ** Tags read from a tree *)
Section Read.
Variables sp wd up lo : N -> bool.
Variable rp : list str.
Variable F : str -> Prop.
Hypothesis F_nonempty : forall f, F f -> f <> [].
Definition readv (o : ostr) : Prop :=
  o = None \/ exists p pr, p <> [] /\ Forall F p /\ (pr = B_PREFIX \/ pr = I_PREFIX) /\ o = Some (pr ++ join_path p).
Definition readt (t : tok) : Prop := readv (tag t) /\ readv (sub t).
Definition readb (b : buf) : Prop := Forall readt (concat (b_lines b)) /\ Forall readt (b_toks b) /\ readv (b_tag b) /\ readv (b_sub b).
Lemma join_nonempty p : p <> [] -> Forall F p -> join_path p <> [].
Proof.
  intros Hp H. destruct p as [|f p]; [easy|]. inversion H as [|? ? Hf _]; subst. specialize (F_nonempty f Hf). destruct f; [easy|]. destruct p; discriminate.
Qed.
Lemma readv_path path pr : Forall F path -> pr = B_PREFIX \/ pr = I_PREFIX -> readv (add_tag_prefix (path_tag path) (Some pr)).
Proof.
  intros H Hpr. unfold path_tag. destruct path as [|f p].
  - left. now destruct Hpr as [-> | ->].
  - right. exists (f :: p), pr. repeat split; auto; [discriminate|]. pose proof (join_nonempty (f :: p) ltac:(discriminate) H) as Hj.
    destruct (join_path (f :: p)); [easy|]. destruct Hpr as [-> | ->]; reflexivity.
Qed.
Lemma readv_next o : readv o -> readv (add_tag_prefix (strip_tag_prefix o) (Some I_PREFIX)).
Proof.
  intros [-> |(p & pr & Hp & HF & Hpr & ->)]; [now left|]. right. exists p, I_PREFIX. repeat split; auto.
  pose proof (join_nonempty p Hp HF) as Hj. destruct (join_path p); [easy|]. destruct Hpr as [-> | ->]; reflexivity.
Qed.
Lemma readt_set_last_ws w l : Forall readt l -> Forall readt (set_last_ws w l).
Proof.
  induction 1 as [|t l Ht HF IH]; [constructor|]. destruct l.
  - cbn. constructor; [exact Ht|constructor].
  - change (set_last_ws w (t :: t0 :: l)) with (t :: set_last_ws w (t0 :: l)). now constructor.
Qed.
Lemma read_append b t : readb b -> readb (append_text sp wd up lo b t).
Proof.
  unfold append_text. destruct t; [auto|]. generalize (tokenize_text wd up lo (n :: t)). intros l. revert b.
  induction l as [|s l IH]; intros b H; [exact H|]. cbn [fold_left]. apply IH.
  destruct H as (H1 & H2 & H3 & H4). split; [exact H1|]. split; [|split; now apply readv_next].
  cbn. apply Forall_app. split; [now apply readt_set_last_ws|]. constructor; [split; assumption|constructor].
Qed.
Lemma read_flush b : readb b -> readb (flush b).
Proof.
  intros (H1 & H2 & H3 & H4). split; [|repeat split; auto; constructor]. cbn. rewrite concat_app, Forall_app. cbn. now rewrite app_nil_r.
Qed.
Lemma read_elem_tags : forall e path b b', Forall F path ->
  (forall x f, below e x -> is_elem x -> node_to_tag_expression x = Ok f -> F f) ->
  readb b -> read_elem sp wd up lo rp e path b = Ok b' -> readb b'.
Proof.
  induction e as [n a text cs tl IH|tl] using xml_ind'; intros path b b' Hpath Hx Hb H; [|discriminate].
  rewrite read_elem_eq in H. cbv zeta in H.
  match type of H with context [append_text sp wd up lo ?x text] => set (b1 := x) in H end.
  assert (H1 : readb b1).
  { destruct Hb as (A & B & C & D). unfold b1. destruct (is_tagging _ _ _ _ _); [|now repeat split]. destruct (truthy (b_tag b));
      (split; [exact A|]; split; [exact B|]; split; auto; apply readv_path; auto). }
  apply (read_append _ text) in H1. set (b2 := append_text sp wd up lo b1 text) in *.
  clearbody b2. clear b1.
  match type of H with bind ?x _ = _ => destruct x as [b3|] eqn:E; [|discriminate] end.
  cbn [bind] in H. injection H as <-. apply read_append.
  assert (H3 : readb b3).
  2: { destruct H3 as (A & B & C & D). destruct (truthy (b_tag b)); (split; [exact A|]; split; [exact B|]; split; auto; now left). }
  assert (Hx' : forall c, In c cs -> forall x f, (x = c \/ below c x) -> is_elem x -> node_to_tag_expression x = Ok f -> F f).
  { intros c Hc x f [Hbx|Hbx] Hel Ef; [subst x|]; eapply Hx; eauto; [now apply below_child|now apply (below_deeper n a text cs tl c)]. }
  clear Hx. revert b2 b3 H1 E. induction IH as [|c cs Hc HF IHc]; intros b2 b3 H1 E.
  - injection E as <-. exact H1.
  - cbn [read_children] in E. destruct (node_to_tag_expression c) as [f|] eqn:Ef; [|discriminate]. cbn [bind] in E.
    match type of E with bind ?x _ = _ => destruct x as [b4|] eqn:E4; [|discriminate] end.
    cbn [bind] in E. eapply IHc; [|eapply Hc; [| | |exact E4]|exact E].
    + intros c' Hc'. apply Hx'. now right.
    + apply Forall_app. split; [exact Hpath|]. constructor; [|constructor]. eapply Hx'; [now left|now left| |exact Ef]. destruct c; [exact I|discriminate E4].
    + intros x g Hbx. apply (Hx' c (or_introl eq_refl)). now right.
    + destruct (is_lb c); [now apply read_flush|exact H1].
Qed.
Lemma read_containers_tags es ls : (forall e x f, In e es -> below e x -> is_elem x -> node_to_tag_expression x = Ok f -> F f) ->
  read_containers sp wd up lo rp es = Ok ls -> Forall readt (concat ls).
Proof.
  intros Hx. unfold read_containers.
  assert (Hb : readb empty_buf) by (repeat split; try constructor; reflexivity). revert Hb. generalize empty_buf as b.
  induction es as [|e es IH]; intros b Hb H.
  - injection H as <-. apply Hb.
  - cbn [foldM] in H. destruct (read_elem sp wd up lo rp e [] b) as [b1|] eqn:E; [|discriminate]. cbn [bind] in H.
    apply IH in H; [exact H| |].
    + intros e' x f He. apply Hx. now right.
    + apply read_elem_tags in E; [|constructor|intros x f; apply Hx; now left|exact Hb].
      destruct (b_toks b1); [exact E|now apply read_flush].
Qed.
End Read.

(** The value of a loaded tag is the name for a path of elements of the containers. *)
Theorem C80_loaded : forall sp wd up lo m path root d lv v,
  (forall e x f, In e (find_all path root) -> below e x -> is_elem x -> node_to_tag_expression x = Ok f -> f <> []) ->
  load_document sp wd up lo m true path root = Ok d -> carries lv d v ->
  exists p, p <> [] /\ v = field_of m (join_path p) /\
    Forall (fun f => exists e x, In e (find_all path root) /\ below e x /\ is_elem x /\ node_to_tag_expression x = Ok f) p.
Proof.
  intros sp wd up lo m path root d lv v Hne H (l & t & Hl & Ht & Hv). unfold load_document, new_document, load_doc in H.
  set (F := fun f => exists e x, In e (find_all path root) /\ below e x /\ is_elem x /\ node_to_tag_expression x = Ok f).
  destruct (read_containers sp wd up lo (map snd m) (find_all path root)) as [ls|] eqn:E; [|discriminate]. cbn [bind] in H. injection H as <-.
  apply (read_containers_tags sp wd up lo (map snd m) F) in E.
  2: { intros f (e & x & H1 & H2 & H3 & H4). now apply (Hne e x). }
  2: { intros e x f H1 H2 H3 H4. now exists e, x. }
  apply in_map_iff in Hl as (l0 & <- & Hl0). apply in_map_iff in Ht as (t0 & <- & Ht0).
  rewrite Forall_forall in E. specialize (E t0 ltac:(apply in_concat; eauto)).
  assert (G : forall o, readv F o -> value (preserve_tag m o) = Some v -> exists p, p <> [] /\ v = field_of m (join_path p) /\ Forall F p).
  { intros o [-> |(p & pr & Hp & HF & Hpr & ->)] Ev; [discriminate|]. exists p. repeat split; auto.
    assert (Ep : preserve_tag m (Some (pr ++ join_path p)) = add_tag_prefix (map_rev m (Some (join_path p))) (Some pr)).
    { unfold preserve_tag. destruct Hpr as [-> | ->]; reflexivity. }
    rewrite Ep, map_rev_field in Ev. destruct Hpr as [-> | ->]; rewrite ?value_add_b, ?value_add_i in Ev; congruence. }
  destruct E as [Em Es]. destruct lv; cbn [given remembered reset_tok preserve_tok tag sub ptag psub] in Hv; destruct Hv as [Hv|Hv]; try discriminate.
  - now apply (G _ Em).
  - now apply (G _ Es).
Qed.

(* ---------------------------------------------------------------- *)
(** ** Paths of plain elements *)
Definition safe (f : str) : Prop := forall cur s, split_path_go false cur (f ++ s) = split_path_go false (rev f ++ cur) s.
Lemma safe_app f g : safe f -> safe g -> safe (f ++ g).
Proof. intros Hf Hg cur s. rewrite <- app_assoc, Hf, Hg, rev_app_distr, <- app_assoc. reflexivity. Qed.
Lemma safe_plain f : no_path_chars f -> safe f.
Proof. intros H cur s. apply split_out; intros Hin; now apply H in Hin. Qed.
Lemma safe_braces url : ~ In 125%N url -> safe (u "{" ++ url ++ u "}").
Proof.
  intros Hu cur s. change ((u "{" ++ url ++ u "}") ++ s) with (123%N :: (url ++ u "}") ++ s). cbn [split_path_go].
  change (N.eqb 123 47 && negb false) with false. change (N.eqb 123 123) with true. cbv iota.
  rewrite <- (app_assoc url). rewrite split_in by auto. change (u "}" ++ s) with (125%N :: s). cbn [split_path_go].
  change (N.eqb 125 47 && negb true) with false. change (N.eqb 125 123) with false. change (N.eqb 125 125) with true. cbv iota.
  f_equal. rewrite !rev_app_distr. cbn [rev u app]. rewrite <- !app_assoc. reflexivity.
Qed.
Lemma split_join_safe p : p <> [] -> Forall safe p -> split_path (join_path p) = p.
Proof.
  unfold split_path. induction p as [|f p IH]; intros Hp H; [easy|]. inversion H as [|? ? Hf HF]; subst. destruct p as [|g p].
  - cbn [join_path]. specialize (Hf [] []). rewrite !app_nil_r in Hf. rewrite Hf. cbn [split_path_go]. now rewrite rev_involutive.
  - change (join_path (f :: g :: p)) with (f ++ u "/" ++ join_path (g :: p)). rewrite Hf. change (u "/" ++ ?x) with (47%N :: x). cbn [split_path_go].
    change (N.eqb 47 47 && negb false) with true. cbv iota. rewrite IH by (auto; discriminate). now rewrite app_nil_r, rev_involutive.
Qed.
Definition path_char (c : N) : bool := N.eqb c 47 || N.eqb c 123 || N.eqb c 125.
Lemma safe_check s : existsb path_char s = false -> no_path_chars s.
Proof.
  intros H c Hc. assert (E : path_char c = false).
  { destruct (path_char c) eqn:E; [|reflexivity]. rewrite <- H. symmetry. apply existsb_exists. eauto. }
  unfold path_char in E. apply orb_false_iff in E as [E E3]. apply orb_false_iff in E as [E1 E2].
  apply N.eqb_neq in E1, E2, E3. auto.
Qed.
Lemma plain_safe node_ok x f : plain_elem node_ok x -> node_to_tag_expression x = Ok f -> is_elem x -> safe f /\ f <> [] /\ exists na, create_node node_ok f = Ok na.
Proof.
  destruct x as [n a text cs tl|tl]; [|intros _ _ []]. intros (Hn & Ha & Hok & (q & local & En & Hl & Hq) & Hkv) E _.
  pose proof (C05_fragment node_ok n a text cs tl f Hn Ha Hok E) as Hc.
  assert (Sn : safe n). { rewrite En. apply safe_app; [|now apply safe_plain]. destruct Hq as [-> |(url & -> & Hu)]; [now intros ? ?|now apply safe_braces]. }
  split; [|split; [|eauto]].
  - destruct a as [|[k v] [|? ?]]; cbn [node_to_tag_expression] in E; try discriminate; injection E as <-; [exact Sn|].
    apply Forall_inv in Hkv as [Hk Hv]. cbn [fst snd] in Hk, Hv.
    change (safe (n ++ u "[@" ++ k ++ u "=""" ++ v ++ u """]")). apply safe_app; [exact Sn|].
    repeat apply safe_app; auto using safe_plain; apply safe_plain, safe_check; reflexivity.
  - destruct Hn as [Hn _]. destruct a as [|[k v] [|? ?]]; cbn [node_to_tag_expression] in E; try discriminate; injection E as <-; [exact Hn|]. now destruct n.
Qed.

(* ---------------------------------------------------------------- *)
(** ** Saving *)
Lemma replace_first_ok f path e : find_all path e <> [] -> (forall c, exists r, f c = Ok r) -> exists r, replace_first f path e = Some (Ok r).
Proof.
  intros H Hf. destruct (find_all path e) as [|c cs] eqn:E; [easy|]. destruct (find_all_plug_first path e c cs E) as (ctx & _ & _ & Hr & _).
  rewrite Hr. destruct (Hf c) as [r ->]. cbn [bind]. eauto.
Qed.
Lemma usable_path node_ok m v : mapping_ok node_ok m -> usable node_ok m v -> creatable node_ok (tag_path m (Some v)).
Proof.
  intros Hm Hv. assert (Hd : creatable node_ok (tag_path m None)).
  { unfold tag_path. destruct (dict_get [] m) as [p|] eqn:E; [|constructor]. destruct p; [constructor|]. apply (Hm []). now apply dict_get_In. }
  destruct v as [|c v]; [exact Hd|]. cbn [tag_path]. unfold path_of. destruct (dict_get (c :: v) m) as [p|] eqn:E.
  - apply (Hm (c :: v)). now apply dict_get_In.
  - destruct Hv as [?|[H|H]]; [discriminate| |exact H]. apply dict_get_None in E. easy.
Qed.
(** If the source and the mapping have only plain elements, and the annotators write only
    names with an element, then the annotated document can be saved. *)
Theorem C80_saves : forall b up lo node_ok m path o l root d',
  annotated_document b up lo m true path o l root = Ok d' ->
  find_all path root <> [] ->
  mapping_ok node_ok m ->
  (forall e x, In e (find_all path root) -> below e x -> plain_elem node_ok x) ->
  (forall lv a n v, In a l -> writes lv a n -> spelled n v -> usable node_ok m v) ->
  exists r, annotated_tree b up lo node_ok m true path o l root = Ok r.
Proof.
  intros b up lo node_ok m path o l root d' H Hc Hm Hp Hw. unfold annotated_tree. rewrite H. cbn [bind].
  pose proof H as H0. unfold annotated_document in H0.
  destruct (load_document (lb_sp b) (lb_wd b) up lo m true path root) as [d|] eqn:Ed; [|discriminate]. clear H0.
  assert (Hu : forall lv v, carries lv d' v -> usable node_ok m v).
  { intros lv v Hv. destruct (C79_annotated _ _ _ _ _ _ _ _ _ _ _ _ _ Ed H Hv) as [Hv'|(a & n & A & B & C)]; [|now apply (Hw lv a n v)].
    assert (Hne : forall e x f, In e (find_all path root) -> below e x -> is_elem x -> node_to_tag_expression x = Ok f -> f <> []).
    { intros e x f He Hb Hel Ef. now apply (plain_safe node_ok x f (Hp e x He Hb) Ef Hel). }
    pose proof (C80_loaded _ _ _ _ _ _ _ _ lv v Hne Ed Hv') as L.
    destruct L as (p & Hpne & Ev & HF).
    assert (HS : Forall safe p /\ creatable node_ok p).
    { split; [|unfold creatable]; rewrite Forall_forall in *; intros f Hf; destruct (HF f Hf) as (e & x & He & Hb & Hel & Ef);
        destruct (plain_safe node_ok x f (Hp e x He Hb) Ef Hel) as (A & B & C); auto. }
    destruct HS as [HS HC]. unfold field_of in Ev. destruct (find _ (rev m)) as [kv|] eqn:E.
    - right. left. apply find_some in E as [E _]. apply in_rev in E. subst v. now apply in_map.
    - right. right. subst v. now rewrite split_join_safe. }
  assert (Hd : creatable node_ok (tag_path m None)) by (apply (usable_path node_ok m []); [exact Hm|now left]).
  assert (Hs : forall lv t o, In t (concat d') -> o = given lv t \/ o = remembered lv t -> creatable node_ok (tag_path m (value o))).
  { intros lv t o' Hin Ho. destruct (value o') as [v|] eqn:Ev; [|exact Hd]. apply usable_path; [exact Hm|]. apply (Hu lv). apply in_concat in Hin as (li & A & B).
    exists li, t. repeat split; auto. destruct Ho as [<-|<-]; auto. }
  unfold updated_tei. destruct (replace_first_ok (fun c => lines_to_tei (lb_sp b) node_ok m (elem_name c) d') path root Hc) as [r ->]; [|eauto].
  intros c. apply C04_saves_iff. intros t Ht _.
  assert (Hmain : creatable node_ok (main_path m t)).
  { rewrite main_tag_path. unfold shown_tag, oor. destruct (truthy (tag t)); [apply (Hs LMain t (tag t))|apply (Hs LMain t (ptag t))]; auto. }
  unfold required_path, sub_path. destruct (truthy (sub_full_tag t)) eqn:E1; [|exact Hmain]. destruct (path_starts_with _ _); [|exact Hmain].
  change (creatable node_ok (tag_path m (value (shown_sub_tag t)))). unfold shown_sub_tag, oor.
  destruct (truthy (sub t)); [apply (Hs LSub t (sub t))|apply (Hs LSub t (psub t))]; auto.
Qed.

(* ---------------------------------------------------------------- *)
(** ** The commands *)
(** usual names (ASCII) and values of attributes *)
Definition letter (c : N) : bool := N.leb 97 c && N.leb c 122 || N.leb 65 c && N.leb c 90 || N.eqb c 95.
Definition name_char (c : N) : bool := letter c || N.leb 48 c && N.leb c 57 || N.eqb c 45 || N.eqb c 46.
Definition xml_name (s : str) : bool := match s with [] => false | c :: s' => letter c && forallb name_char s' end.
Definition value_char (c : N) : bool := N.leb 32 c && N.ltb c 55296.
Definition tei_prefix : str := u "{" ++ TEI_NS ++ u "}".
(** an element with a usual name, possibly in the namespace of TEI, and at most one attribute *)
Definition usual (n : str) (a : list (str * str)) : bool :=
  (xml_name n || starts_with tei_prefix n && xml_name (skipn (length tei_prefix) n))
  && match a with [] => true | [(k, v)] => xml_name k && forallb value_char v | _ => false end.
Definition accepts_usual (node_ok : str -> list (str * str) -> bool) : Prop := forall n a, usual n a = true -> node_ok n a = true.
(** the value of the attribute of a note *)
Definition plain_field (f : str) : Prop := f <> [] /\ forallb value_char f = true /\ no_path_chars f.
(** a tag name that starts with no prefix of its own and has an element *)
Definition plain_tag (m : list (str * str)) (n : str) : Prop :=
  starts_with (u "b-") n = false /\ starts_with (u "i-") n = false /\ (n = [] \/ In n (map fst m) \/ xml_name n = true).
(** the names in the input files *)
Definition input_names (i : inputs) : list str :=
  map an_name (in_targets i) ++ map fst (flat_map an_subs (in_targets i))
  ++ map ma_name (in_complex i) ++ map ms_name (flat_map ma_subs (in_complex i)) ++ map fst (sc_mapping (in_segmentation i)).

Lemma name_char_plain c : name_char c = true -> c <> 47%N /\ c <> 123%N /\ c <> 125%N /\ c <> 91%N /\ c <> 61%N.
Proof.
  intros H. repeat split; intros ->; discriminate H.
Qed.
Lemma xml_name_chars s c : xml_name s = true -> In c s -> name_char c = true.
Proof.
  destruct s as [|x s]; [easy|]. cbn [xml_name]. intros H. apply andb_true_iff in H as [H1 H2]. rewrite forallb_forall in H2. intros [<-|H]; [|auto].
  unfold name_char. now rewrite H1.
Qed.
Lemma xml_name_path node_ok n : accepts_usual node_ok -> xml_name n = true -> creatable node_ok (split_path n).
Proof.
  intros Ha Hn. assert (Hp : no_path_chars n) by (intros c Hc; apply (xml_name_chars _ _ Hn), name_char_plain in Hc; tauto).
  assert (E : split_path n = [n]). { apply (split_join_safe [n]); [discriminate|]. constructor; [now apply safe_plain|constructor]. }
  rewrite E. constructor; [|constructor]. exists (n, []). apply (C05_fragment node_ok n [] [] [] []); [|exact I| |reflexivity].
  - split; [now destruct n|]. intros Hc. apply (xml_name_chars _ _ Hn), name_char_plain in Hc. tauto.
  - apply Ha. unfold usual. now rewrite Hn.
Qed.
Lemma note_creatable node_ok f : accepts_usual node_ok -> plain_field f -> creatable node_ok (split_path (note_path f)).
Proof.
  intros Ha (Hf & Hv & Hp).
  assert (E : split_path (note_path f) = [note_path f]).
  { apply (split_join_safe [note_path f]); [discriminate|]. constructor; [|constructor]. unfold note_path.
    repeat apply safe_app; [apply safe_plain, safe_check; reflexivity|now apply safe_plain|apply safe_plain, safe_check; reflexivity]. }
  rewrite E. constructor; [|constructor]. exists (u "note", [(u "type", f)]).
  apply (C05_fragment node_ok (u "note") [(u "type", f)] [] [] []).
  - split; [discriminate|]. cbn. intuition discriminate.
  - split; [discriminate|]. split; [cbn; intuition discriminate|]. split; [exact Hf|]. intros Hc. rewrite forallb_forall in Hv. now apply Hv in Hc.
  - apply Ha. unfold usual. rewrite Hv. reflexivity.
  - reflexivity.
Qed.
(** the fixed mappings, by computation *)
Definition frag_usual (f : str) : bool := match parse_tag_expression f with Ok na => usual (fst na) (snd na) | Err _ => false end.
Lemma frag_usual_ok node_ok f : accepts_usual node_ok -> frag_usual f = true -> exists na, create_node node_ok f = Ok na.
Proof.
  unfold frag_usual, create_node. intros Ha. destruct (parse_tag_expression f) as [na|]; [|discriminate]. intros H. cbn [bind]. rewrite (Ha _ _ H). eauto.
Qed.
Lemma command_mapping_ok node_ok wd c fields : ascii_right wd -> accepts_usual node_ok ->
  (forall f, In f fields -> In f (map fst (base_mapping c)) \/ plain_field f) -> mapping_ok node_ok (command_mapping wd c fields).
Proof.
  intros Hw Ha Hf. assert (Hb : mapping_ok node_ok (resolved_mapping wd c)).
  { intros k p H. rewrite resolved_ascii in H by exact Hw.
    assert (E : forallb (fun kv => forallb frag_usual (split_path (snd kv))) (resolved_mapping ascii_word c) = true) by (destruct c; vm_compute; reflexivity).
    rewrite forallb_forall in E. specialize (E _ H). cbn [snd] in E. rewrite forallb_forall in E. apply Forall_forall. intros f Hfr. now apply frag_usual_ok, E. }
  assert (Hbase : forall f, In f (map fst (base_mapping c)) -> In f (map fst (resolved_mapping wd c))).
  { intros f H. unfold resolved_mapping, resolve_mapping. rewrite map_map. exact H. }
  assert (H : mapping_ok node_ok (extend_mapping fields (resolved_mapping wd c))).
  { intros k p. apply (extend_paths fields (fun _ p => creatable node_ok (split_path p))); [exact Hb|]. intros f Hin Hn.
    destruct (Hf f Hin) as [G|G]; [exfalso; auto|]. now apply note_creatable. }
  destruct c; try exact H. exact Hb.
Qed.
Lemma plain_tag_usable node_ok m n v : accepts_usual node_ok -> plain_tag m n -> spelled n v -> usable node_ok m v.
Proof.
  intros Ha (H1 & H2 & H) Hv. assert (Hvn : v = n).
  { destruct Hv as [Hv|Hv]; [exact Hv|]. unfold value, split_tag_prefix in Hv. destruct n as [|c n]; [cbn in Hv; congruence|].
    change B_PREFIX with (u "b-") in Hv. change I_PREFIX with (u "i-") in Hv. rewrite H1, H2 in Hv. cbn in Hv. congruence. }
  subst v. destruct H as [H|[H|H]]; [now left|right; now left|]. right. right. now apply xml_name_path.
Qed.
Lemma fixed_tag m n : xml_name n = true \/ In n (map fst m) -> starts_with (u "b-") n = false -> starts_with (u "i-") n = false -> plain_tag m n.
Proof. intros H A B. repeat split; auto. tauto. Qed.

(** Each command can save what it has annotated. *)
Theorem C80_commands : forall c b up lo node_ok xm o i root d',
  ascii_right (lb_wd b) -> accepts_usual node_ok ->
  command_document c b up lo xm o i root = Ok d' ->
  find_all (container c) root <> [] ->
  (forall f, In f (snd (command_fields c xm o)) -> In f (map fst (base_mapping c)) \/ plain_field f) ->
  (forall e x, In e (find_all (container c) root) -> below e x -> plain_elem node_ok x) ->
  (forall n, In n (input_names i) -> plain_tag (command_mapping (lb_wd b) c (snd (command_fields c xm o))) n) ->
  exists r, command_tree c b up lo node_ok xm o i root = Ok r.
Proof.
  intros c b up lo node_ok xm o i root d' Hw Ha H Hc Hf Hp Hn. unfold command_tree, command_document in *.
  set (fields := snd (command_fields c xm o)) in *. set (m := command_mapping (lb_wd b) c fields) in *.
  apply (C80_saves b up lo node_ok m (container c) (command_options c o) (command_annotators c o i) root d' H Hc); [now apply command_mapping_ok|exact Hp|].
  assert (Hkey : forall k, In k (map fst (base_mapping c)) -> In k (map fst m)).
  { intros k Hk. destruct (c : command) eqn:Ec; try (apply command_keys; [discriminate|now left]).
    unfold m, command_mapping, resolved_mapping, resolve_mapping. rewrite map_map. exact Hk. }
  assert (T : forall n, In n (map an_name (in_targets i)) \/ In n (map fst (flat_map an_subs (in_targets i)))
       \/ In n (map ma_name (in_complex i)) \/ In n (map ms_name (flat_map ma_subs (in_complex i))) \/ In n (map fst (sc_mapping (in_segmentation i))) -> plain_tag m n).
  { intros n Hin. apply Hn. unfold input_names. rewrite !in_app_iff. tauto. }
  enough (G : forall lv a n, In a (command_annotators c o i) -> writes lv a n -> plain_tag m n).
  { intros lv a n v Hin Hwr. apply plain_tag_usable; [exact Ha|now apply (G lv a)]. }
  assert (Hl : plain_tag m (u "line_no")) by (apply fixed_tag; [left|..]; reflexivity).
  assert (Hdef : forall lv a n, In a (default_annotators c o i) -> writes lv a n -> plain_tag m n).
  { intros lv a n Hin Hwr. unfold default_annotators in Hin. apply in_app_iff in Hin as [Hin|[<-|[]]].
    - unfold opt_list in Hin. destruct (o_line_numbers o); [|easy]. destruct Hin as [<-|[]]. destruct lv; cbn [writes] in Hwr; [|easy]. subst n. exact Hl.
    - destruct (o_simple o), lv; cbn [writes] in Hwr; apply T; tauto. }
  assert (Hsub : forall p lv a n, a = sub_tag_annotators c o i p -> writes lv a n -> plain_tag m n).
  { intros p lv a n -> Hwr. unfold sub_tag_annotators in Hwr. cbv zeta in Hwr. destruct (o_segment o), lv; cbn [writes] in Hwr; try easy; apply T; tauto. }
  intros lv a n Hin Hwr. destruct c; cbn [command_annotators] in Hin.
  - now apply (Hdef lv a).
  - apply in_app_iff in Hin as [Hin|[<-|[]]]; [now apply (Hdef lv a)|]. destruct lv; cbn [writes] in Hwr; [|easy].
    cbn [with_no_merge sc_mapping] in Hwr. destruct Hwr as [Hwr|[Hwr|[[-> _]|[-> _]]]].
    + apply T. tauto.
    + cbn [map In] in Hwr. repeat destruct Hwr as [<-|Hwr]; try easy; (apply fixed_tag; [left|..]; reflexivity).
    + apply fixed_tag; [left|..]; reflexivity.
    + apply fixed_tag; [left|..]; reflexivity.
  - apply in_app_iff in Hin as [Hin|Hin].
    + destruct Hin as [<-|[<-|[<-|[]]]].
      * destruct lv; cbn [writes] in Hwr; apply T; tauto.
      * destruct lv; cbn [writes] in Hwr; [|easy]. cbn in Hwr. destruct Hwr as [Hwr|[Hwr|[]]]; discriminate.
      * destruct lv; cbn [writes] in Hwr; [|easy]. destruct Hwr as [v Hv]. unfold list_group in Hv. cbn [dict_get] in Hv.
        destruct (streq v (u "list_item")); [|discriminate]. injection Hv as <-. apply fixed_tag; [left|..]; reflexivity.
    + apply in_app_iff in Hin. unfold opt_list in Hin. destruct (o_previous o), (o_following o); cbn [In] in Hin; destruct Hin as [[<-|[]]|[<-|[]]] || destruct Hin as [[<-|[]]|[]] || destruct Hin as [[]|[<-|[]]] || destruct Hin as [[]|[]];
        destruct lv; destruct Hwr.
  - destruct Hin as [<-|[]]. now apply (Hsub true lv _ n eq_refl).
  - destruct Hin as [<-|[]]. now apply (Hsub true lv _ n eq_refl).
  - apply in_app_iff in Hin as [[<-|[<-|[]]]|Hin].
    + now apply (Hsub false lv _ n eq_refl).
    + destruct lv; cbn [writes] in Hwr; [easy|]. cbn [reference_config rc_map map snd In] in Hwr.
      assert (Hpage : plain_tag m (u "reference-page")) by (apply fixed_tag; [left|..]; reflexivity).
      destruct Hwr as [<-|[<-|[]]]; exact Hpage.
    + unfold opt_list in Hin. destruct (o_remove o); [|easy]. destruct Hin as [<-|[]]. destruct lv; destruct Hwr.
  - now apply (Hdef lv a).
  - apply in_app_iff in Hin as [[<-|[]]|Hin]; [now apply (Hsub true lv _ n eq_refl)|]. apply in_app_iff in Hin as [Hin|[<-|[]]].
    + unfold opt_list in Hin. destruct (o_remove o); [|easy]. destruct Hin as [<-|[]]. destruct lv; destruct Hwr.
    + destruct lv; cbn [writes] in Hwr; [easy|]. destruct Hwr as [v Hv]. unfold address_group in Hv. destruct (contains _ _); [|discriminate].
      injection Hv as <-. apply fixed_tag; [left|..]; reflexivity.
Qed.

(* ---------------------------------------------------------------- *)
(** ** Examples *)
Definition ex_opts (fields : list str) : cmd_options :=
  mkOpts fields [] [] false [] [] false [] true 200 false (mkCli 2 3 None) false false false false false false false.
Definition ex_inputs (targets : list tann) : inputs :=
  mkInputs targets [] [] (mkSegConfig [] 0 0 false) (fun _ _ => false) (fun _ _ _ => Ok true) (fun _ _ _ => Ok true) 1 5.
Definition ex_source (inner : list xml) : xml :=
  Elem (u "tei") [] [] [Elem (u "text") [] [] [Elem (u "front") [] (u "A title ") inner []] []] [].
Definition ex_div : xml := Elem (u "div") [(u "type", u "abstract")] (u "text") [Elem (u "lb") [] [] [] (u "more words")] [].
Example C80_ex : exists d' r,
  let fields := [u "title"; u "kwd group"] in let i := ex_inputs [mkTann (u "title") (VOne (u "a title")) []; mkTann (u "kwd group") (VOne (u "more words")) []] in
  command_document CHeader ex_libs ascii_upper ascii_lower [] (ex_opts fields) i (ex_source [ex_div]) = Ok d' /\
  command_tree CHeader ex_libs ascii_upper ascii_lower usual [] (ex_opts fields) i (ex_source [ex_div]) = Ok r /\
  find_all (container CHeader) r =
    [Elem (u "front") [] []
       [Elem (u "docTitle") [] [] [Elem (u "titlePart") [] (u "A title text") [Elem (u "lb") [] [] [] []] []] [];
        Elem (u "note") [(u "type", u "kwd group")] (u "more words") [] []] []] /\
  (forall f, In f (snd (command_fields CHeader [] (ex_opts fields))) -> In f (map fst (base_mapping CHeader)) \/ plain_field f) /\
  (forall e x, In e (find_all (container CHeader) (ex_source [ex_div])) -> below e x -> plain_elem usual x) /\
  (forall n, In n (input_names i) -> plain_tag (command_mapping ascii_word CHeader fields) n).
Proof.
  eexists _, _. cbv zeta. split; [vm_compute; reflexivity|]. split; [vm_compute; reflexivity|]. split; [vm_compute; reflexivity|]. split; [|split].
  - intros f [<-|[<-|[]]]; [left; right; now left|]. right. split; [discriminate|]. split; [reflexivity|]. now apply safe_check.
  - assert (P : forall x, x = ex_div \/ x = Elem (u "lb") [] [] [] (u "more words") -> plain_elem usual x).
    { intros x [-> | ->].
      - split; [split; [discriminate|cbn; intuition discriminate]|]. split; [repeat split; try discriminate; cbn; intuition discriminate|].
        split; [reflexivity|]. split; [exists [], (u "div"); split; [reflexivity|]; split; [now apply safe_check|now left]|].
        constructor; [split; now apply safe_check|constructor].
      - split; [split; [discriminate|cbn; intuition discriminate]|]. split; [exact I|].
        split; [reflexivity|]. split; [exists [], (u "lb"); split; [reflexivity|]; split; [now apply safe_check|now left]|constructor]. }
    intros e x He Hb. apply P. cbn in He. destruct He as [<-|[]].
    repeat match goal with
      | H : below (Elem _ _ _ _ _) _ |- _ => inversion H; clear H; subst
      | H : In _ (_ :: _) |- _ => destruct H as [<-|H]
      | H : In _ [] |- _ => destruct H
      | H : below ex_div _ |- _ => unfold ex_div in H
      end; auto.
  - intros n [<-|[<-|[]]]; (split; [reflexivity|]; split; [reflexivity|]; right; left; vm_compute; tauto).
Qed.
(** A field with a slash has no element. *)
Theorem C80_field_refuted : exists fields targets d', 
  command_document CHeader ex_libs ascii_upper ascii_lower [] (ex_opts fields) (ex_inputs targets) (ex_source [ex_div]) = Ok d' /\
  (forall n, In n (map an_name targets) -> In n fields) /\
  command_tree CHeader ex_libs ascii_upper ascii_lower usual [] (ex_opts fields) (ex_inputs targets) (ex_source [ex_div]) = Err ValueError.
Proof.
  exists [u "a/b"], [mkTann (u "a/b") (VOne (u "a title")) []]. eexists. split; [vm_compute; reflexivity|]. split; [|vm_compute; reflexivity].
  intros n [<-|[]]. now left.
Qed.
(** A source with a slash in an attribute value, as in links, cannot be saved again. *)
Theorem C80_link_refuted : exists x d', 
  x = Elem (u "ref") [(u "target", u "http://example.org")] (u "link") [] [] /\
  command_document CHeader ex_libs ascii_upper ascii_lower [] (ex_opts [u "title"]) (ex_inputs []) (ex_source [x]) = Ok d' /\
  command_tree CHeader ex_libs ascii_upper ascii_lower usual [] (ex_opts [u "title"]) (ex_inputs []) (ex_source [x]) = Err ValueError.
Proof. eexists _, _. split; [reflexivity|]. split; vm_compute; reflexivity. Qed.

Print Assumptions C80_loaded.
Print Assumptions C80_saves.
Print Assumptions C80_commands.
Print Assumptions C80_field_refuted.
Print Assumptions C80_link_refuted.
