(** C90: the commands, from the target document to the saved source. *)
From Coq Require Import QArith.
From Verif Require Import Base ModelTags ProofTags ModelTokenize ModelXml ModelTei ModelTeiDoc SpecTeiRead SpecTeiWrite SpecTeiDoc ProofTeiDoc PropTeiDoc PropTeiRead PropTokenize
  ModelMapping PropMapping ModelTarget ModelFuzzyMatch PropFuzzyMatch ModelWordMatch PropWordMatch ModelFuzzySearch PropFuzzySearch ModelClusters PropClusters ModelJoined ModelPostAnnot PropPostAnnot
  ModelLineNumbers PropLineNumbers ModelExpand ModelSegmentation ModelReference PropReference PropReferenceDoc
  ModelSimpleMatch PropSimpleMatch ModelMatch PropMatch ModelAnnotators PropAnnotators PropNames ModelCommands PropCommands PropSaves PropCommandRuns
  ModelTagConfigs PropTagConfigs PropTarget ModelTargets PropTargets ModelRuns PropTotal.
Open Scope list_scope.
Open Scope nat_scope.

(* ---------------------------------------------------------------- *)
(** ** Specification *)
(** the commands with the option for sub fields *)
Definition has_sub_option (c : command) : Prop := c = CFulltext \/ c = CFigure \/ c = CTable \/ c = CAffiliation.
(** an option of the mapping, after the overrides *)
Definition given_option (xm : mapping) (o : cmd_options) (key : str) : Prop :=
  exists sec, In sec xm /\ (In key (map fst (snd sec)) \/ In key (map fst (o_overrides o))).
(** a field of the mapping that is asked for *)
Definition asked_field (xm : mapping) (o : cmd_options) (f : str) : Prop :=
  plain_name f /\ given_option xm o f /\ (o_fields o = [] \/ In f (o_fields o)).
(** a sub field of a field that is asked for *)
Definition asked_sub (c : command) (xm : mapping) (o : cmd_options) (n : str) : Prop :=
  exists f, plain_name n /\ asked_field xm o f /\ given_option xm o (f ++ u ".sub." ++ n) /\
    (~ has_sub_option c \/ o_sub_fields o = [] \/ n = [] \/ In n (o_sub_fields o)).
(** the tags that a command gives itself *)
Definition own_tags (c : command) (o : cmd_options) (i : inputs) : list str :=
  match c with
  | CHeader | CReferenceSegmenter => [u "line_no"]
  | CSegmentation => [u "line_no"; u "front"; u "annex"; u "page"; u "headnote"; u "reference"; u "body"] ++ map fst (sc_mapping (in_segmentation i))
  | CFulltext => [u "list"]
  | _ => []
  end.
Definition own_sub_tags (c : command) : list str :=
  match c with CReference => [u "reference-page"] | CAffiliation => [u "author_aff-address"] | _ => [] end.
Definition may_give (c : command) (xm : mapping) (o : cmd_options) (i : inputs) (lv : level) (n : str) : Prop :=
  match lv with
  | LMain => asked_field xm o n \/ In n (own_tags c o i)
  | LSub => asked_sub c xm o n \/ In n (own_sub_tags c)
  end.

(* ---------------------------------------------------------------- *)
(** ** The mapping of a command *)
Lemma filter_options_in keep m sec k : In sec (filter_options keep m) -> In k (map fst (snd sec)) ->
  keep k = true /\ exists sec', In sec' m /\ In k (map fst (snd sec')).
Proof.
  unfold filter_options. intros H Hk. apply in_map_iff in H as (s' & <- & Hs). cbn [snd] in Hk. apply in_map_iff in Hk as (kv & <- & Hk). apply filter_In in Hk as [Hk Hkeep].
  split; [exact Hkeep|]. exists s'. split; [exact Hs|]. now apply in_map.
Qed.
Lemma overrides_in xm ov sec k : In sec (mapping_with_overrides xm ov) -> In k (map fst (snd sec)) ->
  exists sec', In sec' xm /\ (In k (map fst (snd sec')) \/ In k (map fst ov)).
Proof.
  intros H Hk. unfold mapping_with_overrides in H. assert (G : In sec xm \/ exists s', In s' xm /\ sec = (fst s', dict_update (snd s') ov)).
  { destruct ov as [|x ov]; [now left|]. right. apply in_map_iff in H as (s' & <- & Hs). now exists s'. }
  destruct G as [G|(s' & G & ->)]; [exists sec; auto|]. exists s'. split; [exact G|]. cbn [snd] in Hk. clear - Hk. revert Hk. generalize (snd s'). induction ov as [|[k' v'] ov IH]; intros d Hk.
  - now left.
  - unfold dict_update in Hk. cbn [fold_left fst snd] in Hk. apply IH in Hk as [Hk|Hk]; [|right; now right].
    assert (G : In k (map fst (dict_set k' v' d)) -> In k (map fst d) \/ k = k').
    { clear. induction d as [|[a b] d IH]; cbn [dict_set map fst In]; [intros [->|[]]; now right|]. destruct (streq k' a) eqn:E; cbn [map fst In]; [tauto|]. intros [->|H]; [left; now left|]. destruct (IH H); tauto. }
    apply G in Hk as [Hk| ->]; [now left|right; now left].
Qed.
Lemma command_option c xm o sec k : In sec (fst (command_fields c xm o)) -> In k (map fst (snd sec)) ->
  given_option xm o k /\ (o_fields o = [] \/ In (field_name k) (o_fields o)) /\
  (has_sub_option c -> o_sub_fields o <> [] -> sub_selected (o_sub_fields o) k = true).
Proof.
  unfold command_fields, filtered_mapping_and_fields. cbn [fst]. set (m := mapping_with_overrides xm (o_overrides o)).
  set (subs := match c with CFulltext | CFigure | CTable | CAffiliation => o_sub_fields o | _ => [] end). intros H Hk.
  set (m' := match o_fields o with [] => m | _ => filter_options (fun k => mem (field_name k) (o_fields o)) m end) in H.
  assert (A : (exists s', In s' m' /\ In k (map fst (snd s'))) /\ (subs <> [] -> sub_selected subs k = true)).
  { unfold filter_sub_fields in H. destruct subs as [|x subs]; [split; [exists sec; auto|easy]|]. destruct (filter_options_in _ _ _ _ H Hk) as [G (s' & G')]. split; [now exists s'|auto]. }
  clear H Hk sec. destruct A as [(sec & H & Hk) A].
  assert (B : (exists s', In s' m /\ In k (map fst (snd s'))) /\ (o_fields o = [] \/ In (field_name k) (o_fields o))).
  { unfold m' in H. destruct (o_fields o) as [|f fs]; [split; [exists sec; auto|now left]|]. destruct (filter_options_in _ _ _ _ H Hk) as [G (s' & G')]. split; [now exists s'|]. right. now apply mem_In. }
  destruct B as [(s' & H' & Hk') B]. split; [|split; [exact B|]].
  - unfold given_option. eapply overrides_in; eassumption.
  - intros Hc Hs. assert (E : subs = o_sub_fields o) by (destruct Hc as [->|[->|[->| ->]]]; reflexivity). rewrite <- E in *. now apply A.
Qed.
Lemma field_name_id k : plain_name k -> field_name k = k.
Proof. intros H. unfold field_name. destruct (cut ch_dot k) as [[a r]|] eqn:E; [|reflexivity]. apply cut_some in E as [-> _]. exfalso. apply H. apply in_app_iff. right. now left. Qed.
Lemma field_name_sub f n : plain_name f -> field_name (f ++ u ".sub." ++ n) = f.
Proof.
  intros H. unfold field_name. assert (E : cut ch_dot (f ++ u ".sub." ++ n) = Some (f, u "sub." ++ n)); [|now rewrite E]. apply cut_some. split; [reflexivity|exact H].
Qed.
Lemma sub_field_sub f n : plain_name f -> sub_field_of (f ++ u ".sub." ++ n) = Some n.
Proof.
  intros H. unfold sub_field_of. rewrite (field_name_sub f n H). cbv zeta. assert (E : f ++ u ".sub." ++ n = (f ++ u ".sub" ++ u ".") ++ n) by (rewrite <- app_assoc; reflexivity). rewrite E.
  assert (S : starts_with (f ++ u ".sub" ++ u ".") ((f ++ u ".sub" ++ u ".") ++ n) = true) by (apply starts_with_spec; now exists n). rewrite S. f_equal.
  rewrite skipn_app, skipn_all, Nat.sub_diag. reflexivity.
Qed.
Lemma dict_section {A} tag (m : list (str * A)) x : dict_get tag m = Some x -> In (tag, x) m.
Proof. apply dict_get_In. Qed.

Section Runs.
Variable b : libs.
Variable rd : readers.
Hypothesis sp_ws4 : forall c, ws4 c = true -> lb_sp b c = true.
Let T := targets_of b rd.

(** The targets of a command are fields and sub fields that are asked for. *)
Theorem C90_fields : forall c xm o t l a, T (fst (command_fields c xm o)) t = Ok l -> In a l ->
  asked_field xm o (tg_name a) /\ In (tg_name a) (snd (command_fields c xm o)) /\ forall n v, In (n, v) (tg_subs a) -> asked_sub c xm o n.
Proof using sp_ws4.
  intros c xm o t l a H Ha. destruct (C88_names _ _ _ _ _ _ _ _ _ _ _ _ _ _ sp_ws4 _ _ _ _ H Ha) as (m & Hm & Hn & Hp & Hs). apply dict_section in Hm.
  destruct (command_option c xm o _ _ Hm Hn) as (G1 & G2 & _). rewrite (field_name_id _ Hp) in G2.
  assert (A : asked_field xm o (tg_name a)) by (split; [exact Hp|split; assumption]). split; [exact A|]. split.
  - unfold command_fields, filtered_mapping_and_fields in *. cbn [fst snd] in *. destruct (o_fields o) as [|f fs] eqn:Ef; [|destruct G2 as [G2|G2]; [discriminate|exact G2]].
    apply in_flat_map. clear G1 G2 A H Hs.
    assert (X : exists sec, In sec (mapping_with_overrides xm (o_overrides o)) /\ In (tg_name a) (map fst (snd sec))).
    { unfold filter_sub_fields in Hm. revert Hm. destruct (match c with CFulltext | CFigure | CTable | CAffiliation => o_sub_fields o | _ => [] end) as [|x subs]; intros Hm; [now exists (td_tag t, m)|].
      destruct (filter_options_in _ _ _ _ Hm Hn) as [_ G]. exact G. }
    destruct X as (sec & X1 & X2). exists sec. split; [exact X1|]. apply filter_In. split; [exact X2|]. now apply negb_true_iff, has_false.
  - intros n v Hnv. destruct (Hs n v Hnv) as [Hn1 Hn2]. exists (tg_name a). split; [exact Hn1|]. split; [exact A|].
    destruct (command_option c xm o _ _ Hm Hn2) as (S1 & _ & S2). split; [exact S1|]. unfold sub_selected in S2. rewrite (sub_field_sub _ _ Hp) in S2.
    destruct n as [|x n]; [tauto|]. destruct (o_sub_fields o) as [|y ys]; [tauto|].
    assert (D : has_sub_option c \/ ~ has_sub_option c) by (unfold has_sub_option; destruct c; intuition discriminate). destruct D as [D|D]; [|tauto].
    do 3 right. apply mem_In. now apply S2.
Qed.
(** the names in the inputs of a run *)
Lemma inputs_inv c xm o i t i' : run_inputs b rd c xm o i t = Ok i' -> exists ts tags, T (fst (command_fields c xm o)) t = Ok ts /\
  tags_of b rd c o (fst (command_fields c xm o)) = Ok tags /\
  i' = mkInputs (map tann_of ts) (map mann_of ts) tags (in_segmentation i) (in_below i) (in_seq_filter i) (in_choice_filter i) (in_max_gap i) (in_fuel i).
Proof.
  unfold run_inputs. fold T. destruct (T _ t) as [ts|]; [|discriminate]. cbn [bind]. destruct (tags_of _ _ _ _ _) as [tags|]; [|discriminate]. cbn [bind]. intros [= <-]. now exists ts, tags.
Qed.
(** Both matchers get the same names, values and sub annotations; the flags of the complex
    matcher are those of the mapping. *)
Theorem C90_matchers : forall c xm o i t i', run_inputs b rd c xm o i t = Ok i' ->
  map (fun a => (an_name a, an_value a, an_subs a)) (in_targets i') =
    map (fun a => (ma_name a, ma_value a, map (fun s => (ms_name s, ms_value s)) (ma_subs a))) (in_complex i') /\
  forall a, In a (in_complex i') -> exists m, dict_get (td_tag t) (fst (command_fields c xm o)) = Some m /\
    (ma_multiple a = true <-> option_of m (ma_name a) ".match-multiple" = Some (u "true")) /\
    (ma_bonding a = true <-> option_of m (ma_name a) ".bonding" = Some (u "true")) /\
    (ma_next a = true -> option_of m (ma_name a) ".require-next" = Some (u "true")).
Proof using.
  intros c xm o i t i' H. apply inputs_inv in H as (ts & tags & H & _ & ->). cbn [in_targets in_complex]. split.
  - rewrite !map_map. apply map_ext. intros a. cbn. f_equal. rewrite map_map. cbn. induction (tg_subs a) as [|[n v] l IH]; [reflexivity|]. cbn [map fst snd]. now f_equal.
  - intros a Ha. apply in_map_iff in Ha as (g & <- & Hg). exact (C88_flags _ _ _ _ _ _ _ _ _ _ _ _ _ _ _ _ _ _ H Hg).
Qed.
Lemma names_main ts : map an_name (map tann_of ts) = map tg_name ts /\ map ma_name (map mann_of ts) = map tg_name ts.
Proof. rewrite !map_map. split; reflexivity. Qed.
Lemma names_sub ts : map fst (flat_map an_subs (map tann_of ts)) = map fst (flat_map tg_subs ts) /\ map ms_name (flat_map ma_subs (map mann_of ts)) = map fst (flat_map tg_subs ts).
Proof.
  split; induction ts as [|a ts IH]; cbn [map flat_map]; try reflexivity; rewrite !map_app, IH; [reflexivity|]. f_equal. cbn [mann_of ma_subs]. rewrite map_map. reflexivity.
Qed.
Lemma run_names c xm o i t i' : run_inputs b rd c xm o i t = Ok i' ->
  (forall n, In n (map an_name (in_targets i')) \/ In n (map ma_name (in_complex i')) -> asked_field xm o n) /\
  (forall n, In n (map fst (flat_map an_subs (in_targets i'))) \/ In n (map ms_name (flat_map ma_subs (in_complex i'))) -> asked_sub c xm o n) /\
  in_segmentation i' = in_segmentation i.
Proof using sp_ws4.
  intros H. apply inputs_inv in H as (ts & tags & H & _ & ->). cbn [in_targets in_complex in_segmentation]. destruct (names_main ts) as [-> ->]. destruct (names_sub ts) as [-> ->]. split; [|split; [|reflexivity]].
  - intros n Hn. assert (Hin : In n (map tg_name ts)) by tauto. apply in_map_iff in Hin as (a & <- & Ha). now apply (C90_fields _ _ _ _ _ _ H Ha).
  - intros n Hn. assert (Hin : In n (map fst (flat_map tg_subs ts))) by tauto. apply in_map_iff in Hin as ([n' v] & <- & Hin). apply in_flat_map in Hin as (a & Ha & Hin).
    destruct (C90_fields _ _ _ _ _ _ H Ha) as (_ & _ & G). now apply (G n' v).
Qed.
Lemma line_tag below cl : c_tag (cli_config below cl) = u "line_no".
Proof. reflexivity. Qed.
Lemma default_writes c o i lv a n : In a (default_annotators c o i) -> writes lv a n ->
  match lv with LMain => n = u "line_no" \/ In n (map an_name (in_targets i)) \/ In n (map ma_name (in_complex i))
              | LSub => In n (map fst (flat_map an_subs (in_targets i))) \/ In n (map ms_name (flat_map ma_subs (in_complex i))) end.
Proof.
  unfold default_annotators. intros Ha Hw. apply in_app_iff in Ha as [Ha|[<-|[]]].
  - unfold opt_list in Ha. destruct (o_line_numbers o); [|easy]. destruct Ha as [<-|[]]. destruct lv; cbn [writes] in Hw; [left; exact Hw|easy].
  - destruct (o_simple o), lv; cbn [writes] in Hw; tauto.
Qed.
Lemma command_writes c o i lv a n : In a (command_annotators c o i) -> writes lv a n ->
  match lv with LMain => In n (own_tags c o i) \/ In n (map an_name (in_targets i)) \/ In n (map ma_name (in_complex i))
              | LSub => In n (own_sub_tags c) \/ In n (map fst (flat_map an_subs (in_targets i))) \/ In n (map ms_name (flat_map ma_subs (in_complex i))) end.
Proof.
  intros Ha Hw.
  assert (Hs : forall ps, writes lv (sub_tag_annotators c o i ps) n -> match lv with LMain => In n (map an_name (in_targets i)) | LSub => In n (map fst (flat_map an_subs (in_targets i))) end).
  { intros ps. unfold sub_tag_annotators. destruct (o_segment o), lv; cbn [writes]; tauto. }
  destruct c; cbn [command_annotators] in Ha.
  - apply (default_writes CHeader o i lv a n) in Ha; [|exact Hw]. destruct lv; cbn [own_tags own_sub_tags In]; intuition congruence.
  - apply in_app_iff in Ha as [Ha|[<-|[]]].
    + apply (default_writes CSegmentation o i lv a n) in Ha; [|exact Hw]. destruct lv; cbn [own_tags own_sub_tags In app]; intuition congruence.
    + destruct lv; cbn [writes] in Hw; [|easy]. left. cbn [own_tags]. apply in_app_iff. cbn [with_no_merge sc_mapping] in Hw. cbn [map In] in *. intuition congruence.
  - cbn [app In] in Ha. destruct Ha as [<-|[<-|[<-|Ha]]].
    + destruct lv; cbn [writes] in Hw; tauto.
    + destruct lv; cbn [writes replaced_tags map snd In] in Hw; intuition discriminate.
    + destruct lv; cbn [writes] in Hw; [|easy]. destruct Hw as [v Hv]. unfold list_group in Hv. cbn [dict_get] in Hv. destruct (streq v _); [|discriminate]. injection Hv as <-. left. now left.
    + exfalso. apply in_app_iff in Ha. unfold opt_list in Ha. destruct (o_previous o), (o_following o); cbn [In] in Ha; destruct Ha as [Ha|Ha];
        repeat (destruct Ha as [<-|Ha]; [destruct lv; destruct Hw|]); destruct Ha.
  - destruct Ha as [<-|[]]. apply Hs in Hw. destruct lv; tauto.
  - destruct Ha as [<-|[]]. apply Hs in Hw. destruct lv; tauto.
  - cbn [app In] in Ha. destruct Ha as [<-|[<-|Ha]].
    + apply Hs in Hw. destruct lv; tauto.
    + destruct lv; cbn [writes] in Hw; [easy|]. left. cbn in Hw. destruct Hw as [<-|[<-|[]]]; now left.
    + unfold opt_list in Ha. destruct (o_remove o); [|easy]. destruct Ha as [<-|[]]. destruct lv; destruct Hw.
  - apply (default_writes CReferenceSegmenter o i lv a n) in Ha; [|exact Hw]. destruct lv; cbn [own_tags own_sub_tags In]; intuition congruence.
  - cbn [app In] in Ha. destruct Ha as [<-|Ha]; [apply Hs in Hw; destruct lv; tauto|]. apply in_app_iff in Ha as [Ha|[<-|[]]].
    + unfold opt_list in Ha. destruct (o_remove o); [|easy]. destruct Ha as [<-|[]]. destruct lv; destruct Hw.
    + destruct lv; cbn [writes] in Hw; [easy|]. destruct Hw as [v Hv]. unfold address_group in Hv. destruct (contains _ _); [|discriminate]. injection Hv as <-. left. now left.
Qed.

(** Tags of the result are those of the source, fields that are asked for, or the command's own. *)
Theorem C90_tags : forall c up lo xm o i t root d d' lv v,
  load_document (lb_sp b) (lb_wd b) up lo (command_mapping (lb_wd b) c (snd (command_fields c xm o))) true (container c) root = Ok d ->
  run_document b rd c up lo xm o i t root = Ok d' -> carries lv d' v ->
  carries lv d v \/ exists n, may_give c xm o i lv n /\ spelled n v.
Proof using sp_ws4.
  intros c up lo xm o i t root d d' lv v Hd H Hc. unfold run_document in H. destruct (run_inputs b rd c xm o i t) as [i'|] eqn:Ei; [|discriminate]. cbn [bind] in H.
  destruct (C79_annotated _ _ _ _ _ _ _ _ _ _ _ _ _ Hd H Hc) as [G|(a & n & Ha & Hw & Hs)]; [now left|]. right. exists n. split; [|exact Hs].
  apply (command_writes c o i' lv a n Ha) in Hw. destruct (run_names _ _ _ _ _ _ Ei) as (N1 & N2 & N3).
  assert (O : own_tags c o i' = own_tags c o i) by (unfold own_tags; now rewrite N3). destruct lv; cbn [may_give].
  - rewrite O in Hw. destruct Hw as [Hw|Hw]; [now right|left; now apply N1].
  - destruct Hw as [Hw|Hw]; [now right|left; now apply N2].
Qed.

(* ---------------------------------------------------------------- *)
(** ** Runs that save *)
(** options of the mapping that can be read, expressions that can be evaluated *)
Definition readable_mapping (c : command) (o : cmd_options) (xm : mapping) (t : target_doc) : Prop :=
  (exists m, dict_get (td_tag t) xm = Some m /\ forall k, In k (map fst m) -> plain_name k ->
     good_options (lb_lower b) (rd_compiles rd) (lb_int b) (rd_json_concat rd) (rd_json_range rd) m k /\ good_subs (rd_compiles rd) m k /\
     forall e x, expression (lb_sp b) (rd_json_concat rd) (rd_json_range rd) m k x -> exists l, td_xpath t e x = Ok l) /\
  (is_simple c o = true -> forall f, PropTagConfigs.field_of xm f -> exists cfg, described (lb_sp b) (rd_lb rd) (lb_lower b) (rd_compiles rd) (lb_int b) xm f cfg).
(** library functions as they are *)
Definition usual_readers : Prop :=
  (forall s, s <> [] -> forallb (lb_dg b) s = true -> lb_int b s <> None) /\
  lb_lower b (u "True") = u "true" /\ lb_int b (u "1") = Some 1%Z /\
  (forall l f, In f (rd_order rd l) <-> In f l).
(** the options of a command, apart from the mapping *)
Definition proper_options (c : command) (o : cmd_options) (i : inputs) : Prop :=
  (is_simple c o = false -> filter_total (in_seq_filter i) /\ filter_total (in_choice_filter i)) /\
  (with_defaults c = true -> o_line_numbers o = true -> o_ratio (o_line_cli o) = None /\ (0 < o_min (o_line_cli o))%Z) /\
  (c = CReference -> o_idno_prefix o = true -> forall t, In t idno_sub_tags -> dict_get t (lb_ref_regexes b) <> None).
Lemma simple_is c o : simple_matcher c o = is_simple c o.
Proof. destruct c; reflexivity. Qed.
Lemma inputs_ok c xm o i t : usual_readers -> readable_mapping c o (fst (command_fields c xm o)) t -> exists i', run_inputs b rd c xm o i t = Ok i'.
Proof using sp_ws4.
  intros (U2 & U3 & U4 & U5) [(m & Hm & R1) R2]. unfold run_inputs.
  destruct (C88_total (lb_sp b) (lb_wd b) (lb_dg b) (lb_lower b) (rd_compiles rd) (lb_int b) (rd_show_int rd) (rd_json_concat rd) (rd_json_range rd)
    (rd_group rd) (rd_spans rd) (td_xpath t) (td_excluding t) (td_root t) U2 sp_ws4 _ _ m Hm R1) as [ts Hts].
  unfold targets_of. rewrite Hts. cbn [bind]. unfold tags_of. rewrite simple_is. destruct (is_simple c o); [|cbn [bind]; eexists; reflexivity].
  destruct (proj2 (proj2 (C86_map (lb_sp b) (rd_lb rd) (lb_lower b) (rd_compiles rd) (lb_int b) U3 U4 (rd_order rd) _ U5)) (R2 eq_refl)) as [tags Ht].
  rewrite Ht. cbn [bind]. eexists. reflexivity.
Qed.
Theorem C90_saves : forall c up lo node_ok xm o i t root,
  searches b -> usual_readers -> ascii_right (lb_wd b) -> accepts_usual node_ok ->
  proper_options c o i -> readable_mapping c o (fst (command_fields c xm o)) t ->
  (is_simple c o = true -> with_subs c -> forall m k, dict_get (td_tag t) (fst (command_fields c xm o)) = Some m -> no_sub_regex m k) ->
  forallb loadable (find_all (container c) root) = true -> find_all (container c) root <> [] ->
  (forall e x, In e (find_all (container c) root) -> below e x -> plain_elem node_ok x) ->
  (forall f, In f (snd (command_fields c xm o)) -> In f (map fst (base_mapping c)) \/ plain_field f) ->
  (forall f, asked_field xm o f -> starts_with (u "b-") f = false /\ starts_with (u "i-") f = false /\ (c = CSegmentation -> In f (map fst (base_mapping c)) \/ xml_name f = true)) ->
  (forall n, asked_sub c xm o n -> starts_with (u "b-") n = false /\ starts_with (u "i-") n = false /\ (n = [] \/ In n (map fst (base_mapping c)) \/ xml_name n = true)) ->
  (forall n, In n (map fst (sc_mapping (in_segmentation i))) -> plain_tag (command_mapping (lb_wd b) c (snd (command_fields c xm o))) n) ->
  exists r n, forall m, n <= m -> run_tree b rd c up lo node_ok xm o (with_fuel m i) t root = Ok r.
Proof using sp_ws4.
  intros c up lo node_ok xm o i t root Hb Hu Hw Ha Hp Hr Hs Hl Hc He Hf Hf1 Hn1 Hseg.
  destruct (inputs_ok c xm o i t Hu Hr) as [i' Ei]. pose proof (run_names _ _ _ _ _ _ Ei) as (N1 & N2 & N3).
  assert (E : forall m, run_inputs b rd c xm o (with_fuel m i) t = Ok (with_fuel m i')).
  { intros m. apply inputs_inv in Ei as (ts & tags & E1 & E2 & ->). unfold run_inputs. fold T. rewrite E1. cbn [bind]. rewrite E2. reflexivity. }
  assert (P : proper c b o i').
  { destruct Hp as (P1 & P2 & P3). split; [|split; [|split; assumption]].
    - intros S W. apply inputs_inv in Ei as (ts & tags & E1 & _ & ->). cbn [in_targets]. intros a nv Hin Hnv. apply in_map_iff in Hin as (g & <- & Hg). cbn [tann_of an_subs] in Hnv.
      destruct (proj1 Hr) as (m & Hm & _). destruct nv as [n v].
      destruct (C88_plain_subs _ _ _ _ _ _ _ _ _ _ _ _ _ _ sp_ws4 _ _ _ _ m E1 Hg Hm (Hs S W m _ Hm) n v Hnv) as (s & -> & _). now exists s.
    - intros S. apply inputs_inv in Ei as (ts & tags & _ & _ & ->). exact (P1 S). }
  assert (K : forall n, In n (input_names i') -> plain_tag (command_mapping (lb_wd b) c (snd (command_fields c xm o))) n).
  { assert (B : forall n, In n (map fst (base_mapping c)) -> In n (map fst (command_mapping (lb_wd b) c (snd (command_fields c xm o))))).
    { intros n Hn. destruct c; try (apply command_keys; [discriminate|now left]). unfold command_mapping, resolved_mapping, resolve_mapping. rewrite map_map. exact Hn. }
    assert (X : forall n, asked_field xm o n -> In n (snd (command_fields c xm o)) -> plain_tag (command_mapping (lb_wd b) c (snd (command_fields c xm o))) n).
    { intros n A I. destruct (Hf1 n A) as (F1 & F2 & F3). split; [exact F1|]. split; [exact F2|]. right.
      assert (D : c = CSegmentation \/ c <> CSegmentation) by (destruct c; (now left) || (right; discriminate)). destruct D as [D|D].
      - destruct (F3 D) as [G|G]; [left; now apply B|now right].
      - left. apply command_keys; [exact D|now right]. }
    assert (Y : forall n, asked_sub c xm o n -> plain_tag (command_mapping (lb_wd b) c (snd (command_fields c xm o))) n).
    { intros n A. destruct (Hn1 n A) as (F1 & F2 & F3). split; [exact F1|]. split; [exact F2|]. destruct F3 as [F3|[F3|F3]]; [now left| |tauto]. right. left. now apply B. }
    intros n Hin. unfold input_names in Hin. rewrite N3 in Hin. rewrite !in_app_iff in Hin.
    assert (Z : In n (map an_name (in_targets i')) \/ In n (map ma_name (in_complex i')) -> In n (snd (command_fields c xm o))).
    { clear - Ei sp_ws4 T. apply inputs_inv in Ei as (ts & tags & E1 & _ & ->). cbn [in_targets in_complex]. destruct (names_main ts) as [-> ->]. intros H.
      assert (Hin : In n (map tg_name ts)) by tauto. apply in_map_iff in Hin as (a & <- & Hg). now apply (C90_fields _ _ _ _ _ _ E1 Hg). }
    destruct Hin as [Q|[Q|[Q|[Q|Q]]]].
    - apply X; [apply N1; now left|apply Z; now left].
    - apply Y, N2. now left.
    - apply X; [apply N1; now right|apply Z; now right].
    - apply Y, N2. now right.
    - now apply Hseg. }
  destruct (C87_saves c b up lo node_ok xm o i' root Hb P Hl Hw Ha Hc Hf He K) as (r & n & G).
  exists r, n. intros m Hm. unfold run_tree. rewrite E. cbn [bind]. now apply G.
Qed.
End Runs.

(* ---------------------------------------------------------------- *)
(** ** Example: figures, from the mapping and the two documents to the saved source *)
Definition ex_readers : readers :=
  mkReaders (N.eqb 10) (fun _ => true) digit_str no_json no_json no_group no_spans (@rev str).
Definition fig_target : target_doc :=
  mkTargetDoc (u "article") (El [] [El [] [El [] [leaf_el "Fig 1"; leaf_el "stones"] []] []] [])
    (fun e x => if streq x (u ".//fig") then Ok [[0; 0]] else if streq x (u "label") then Ok [e ++ [0]] else if streq x (u "caption") then Ok [e ++ [1]] else Ok [])
    all_content.
Definition fig_mapping : mapping :=
  [(u "article", [(u "figure", u ".//fig"); (u "figure.sub.figure-label", u "label"); (u "figure.sub.figure-caption", u "caption"); (u "figure.merge", u "yes"); (u "title", u ".//title")])].
Definition fig_opts : cmd_options :=
  mkOpts [u "figure"] [u "figure-label"] [] false [] [] false [] true 200 false (mkCli 2 3 None) false false false false false false false.
Definition fig_source : xml :=
  Elem (u "tei") [] [] [Elem (u "text") [] [] [Elem (u "figure") [] (u "Fig 1 stones") [] (u " "); Elem (u "note") [(u "type", u "other")] (u "page") [] []] []] [].
Definition fig_inputs : inputs := plain_inputs [] [].
Lemma fig_fields : command_fields CFigure fig_mapping fig_opts =
  ([(u "article", [(u "figure", u ".//fig"); (u "figure.sub.figure-label", u "label"); (u "figure.merge", u "yes")])], [u "figure"]).
Proof. reflexivity. Qed.
Example C90_ex :
  run_tree real_libs ex_readers CFigure ascii_upper ascii_lower usual fig_mapping fig_opts (with_fuel 20 fig_inputs) fig_target fig_source =
    Ok (Elem (u "tei") [] [] [Elem (u "text") [] []
          [Elem (u "figure") [] [] [Elem (u "head") [] [] [Elem (u "label") [] (u "Fig 1") [] []] (u " stones")] (u " ");
           Elem (u "note") [(u "type", u "other")] (u "page") [] []] []] []).
Proof. vm_compute. reflexivity. Qed.
(** and it meets what is asked for by C90_saves *)
Example C90_ex_saves :
  searches real_libs /\ usual_readers real_libs ex_readers /\ ascii_right (lb_wd real_libs) /\ accepts_usual usual /\
  proper_options real_libs CFigure fig_opts fig_inputs /\ readable_mapping real_libs ex_readers CFigure fig_opts (fst (command_fields CFigure fig_mapping fig_opts)) fig_target /\
  (forall m k, dict_get (td_tag fig_target) (fst (command_fields CFigure fig_mapping fig_opts)) = Some m -> no_sub_regex m k) /\
  forallb loadable (find_all (container CFigure) fig_source) = true /\ find_all (container CFigure) fig_source <> [] /\
  (forall e x, In e (find_all (container CFigure) fig_source) -> below e x -> plain_elem usual x) /\
  (forall f, asked_field fig_mapping fig_opts f -> f = u "figure") /\ (forall n, asked_sub CFigure fig_mapping fig_opts n -> n = [] \/ n = u "figure-label").
Proof.
  split; [apply C87_searches; [exact prefix_lsm_ok|exact C30_ex_ok|reflexivity]|]. split.
  { split; [|split; [reflexivity|split; [reflexivity|intros l f; symmetry; apply in_rev]]].
    - intros [|c s] H1 H2; [easy|]. cbn [real_libs with_searches lb_int]. unfold ascii_int. change (lb_dg real_libs) with ascii_digit in H2. now rewrite H2. }
  split; [intros c _; reflexivity|]. split; [intros n a H; exact H|]. split; [split; [discriminate|split; discriminate]|]. rewrite fig_fields. cbn [fst]. split; [|split].
  { split.
    - eexists. split; [reflexivity|]. intros k Hk Hp. split; [|split; [intros n _ _; unfold regex_ok; destruct (option_of _ _ _) as [[|? ?]|]; reflexivity || exact I|intros e x _; cbn [td_xpath fig_target]; repeat destruct (streq _ _); eexists; reflexivity]]. cbn in Hk.
      destruct Hk as [<-|[<-|[<-|[]]]]; try (exfalso; apply Hp; cbn; tauto). repeat split; exact I.
    - intros _ f Hf.
      assert (E : exists d, tag_config_map (lb_sp real_libs) (rd_lb ex_readers) (lb_lower real_libs) (rd_compiles ex_readers) (lb_int real_libs) (@rev str)
         [(u "article", [(u "figure", u ".//fig"); (u "figure.sub.figure-label", u "label"); (u "figure.merge", u "yes")])] = Ok d) by (eexists; vm_compute; reflexivity).
      assert (R : forall l g, In g (@rev str l) <-> In g l) by (intros l g; symmetry; apply in_rev).
      destruct (C86_map (lb_sp real_libs) (rd_lb ex_readers) (lb_lower real_libs) (rd_compiles ex_readers) (lb_int real_libs) eq_refl eq_refl (@rev str)
         [(u "article", [(u "figure", u ".//fig"); (u "figure.sub.figure-label", u "label"); (u "figure.merge", u "yes")])] R) as [_ [G _]]. exact (G E f Hf). }
  { intros m k [= <-] n _ _. destruct (truthy _) eqn:E; [|reflexivity]. exfalso. unfold option_of in E. destruct (dict_get _ _) as [v|] eqn:Ed; [|discriminate]. apply dict_get_In in Ed.
    assert (G : forall v s, In (s, v) [(u "figure", u ".//fig"); (u "figure.sub.figure-label", u "label"); (u "figure.merge", u "yes")] -> forall p, s <> p ++ u ".extract-regex").
    { intros v' s Hs p ->. apply (in_map fst) in Hs. cbn [map fst In] in Hs.
      destruct Hs as [Hs|[Hs|[Hs|[]]]]; apply (f_equal (@rev N)) in Hs; rewrite rev_app_distr in Hs; cbn in Hs; discriminate. }
    exact (G _ _ Ed _ eq_refl). }
  split; [reflexivity|]. split; [discriminate|]. split; [|split].
  - assert (P : forall x, x = Elem (u "figure") [] (u "Fig 1 stones") [] (u " ") \/ x = Elem (u "note") [(u "type", u "other")] (u "page") [] [] -> plain_elem usual x).
    { intros x [-> | ->].
      - split; [split; [discriminate|cbn; intuition discriminate]|]. split; [exact I|].
        split; [reflexivity|]. split; [exists [], (u "figure"); split; [reflexivity|]; split; [now apply safe_check|now left]|constructor].
      - split; [split; [discriminate|cbn; intuition discriminate]|]. split; [repeat split; try discriminate; cbn; intuition discriminate|].
        split; [reflexivity|]. split; [exists [], (u "note"); split; [reflexivity|]; split; [now apply safe_check|now left]|].
        constructor; [split; now apply safe_check|constructor]. }
    intros e x He Hb. apply P. cbn in He. destruct He as [<-|[]].
    repeat match goal with
      | H : below (Elem _ _ _ _ _) _ |- _ => inversion H; clear H; subst
      | H : In _ (_ :: _) |- _ => destruct H as [<-|H]
      | H : In _ [] |- _ => destruct H
      end; auto.
  - intros f (_ & _ & [H|[<-|[]]]); [discriminate|reflexivity].
  - intros n (f & _ & _ & _ & [H|[H|[H|[<-|[]]]]]); [exfalso; apply H; unfold has_sub_option; tauto|discriminate|now left|now right].
Qed.

Print Assumptions C90_fields.
Print Assumptions C90_matchers.
Print Assumptions C90_tags.
Print Assumptions C90_saves.
