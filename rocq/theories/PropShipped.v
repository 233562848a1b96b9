(** C99: the configuration files of the repository (config/xml-mapping.conf and
    config/segmentation.conf). *)
From Coq Require Import QArith.
From Verif Require Import Base ModelTags ModelTokenize ModelXml ModelTei ModelTeiDoc SpecTeiRead ModelMapping PropMapping ModelTarget PropTarget ModelJoined ModelDownload ModelJatsText ModelWordMatch
  ModelFuzzyMatch PropFuzzyMatch ModelLineNumbers ModelSegmentation ModelReference ModelSimpleMatch PropSimpleMatch ModelMatch PropMatch PropLineNumbers ModelAnnotators PropAnnotators PropNames ModelCommands PropCommands PropSaves PropCommandRuns
  ModelTagConfigs PropTagConfigs ModelTargets PropTargets ModelRuns PropTotal PropRuns ModelArgs ModelIni RepoConfig PropIni.
Open Scope list_scope.
Open Scope nat_scope.

(* ---------------------------------------------------------------- *)
(** ** What is read from the files *)
(** character functions that are the usual ones for ASCII *)
Definition usual_space (sp : N -> bool) : Prop := forall c, (c < 128)%N -> sp c = ascii_space c.
Definition ascii_text (s : str) : bool := forallb (fun c => N.ltb c 128) s.
Definition usual_lower (lower : str -> str) : Prop := forall s, ascii_text s = true -> lower s = lower_letters s.
Definition article : options := Eval vm_compute in
  match parse_xml_mapping ascii_space lower_letters xml_mapping_conf with Ok [(_, o)] => o | _ => [] end.
Definition segment_options : options := Eval vm_compute in
  match read_ini ascii_space lower_letters segmentation_conf with Ok [_; (_, o)] => o | _ => [] end.

(** only the values of these functions matter *)
Section Ext.
Variables sp sp' : N -> bool.
Variables lower lower' : str -> str.
Hypothesis Hsp : forall c, sp c = sp' c.
Hypothesis Hlo : forall s, lower s = lower' s.
Lemma lstrip_ext s : lstrip sp s = lstrip sp' s.
Proof. induction s as [|x s IH]; [reflexivity|]. cbn. rewrite Hsp. now destruct (sp' x). Qed.
Lemma strip_ext s : strip sp s = strip sp' s.
Proof. unfold strip. now rewrite !lstrip_ext. Qed.
Lemma rstrip_ext s : rstrip sp s = rstrip sp' s.
Proof. unfold rstrip, rstrip_by. f_equal. generalize (rev s). induction l as [|x l IH]; [reflexivity|]. cbn. rewrite Hsp. now destruct (sp' x). Qed.
Lemma indent_ext s : indent_of sp s = indent_of sp' s.
Proof. induction s as [|x s IH]; [reflexivity|]. cbn. rewrite Hsp. destruct (sp' x); [now rewrite IH|reflexivity]. Qed.
Lemma read_line_ext st l : read_line sp lower st l = read_line sp' lower' st l.
Proof.
  unfold read_line. rewrite strip_ext, indent_ext. destruct (is_comment _); [reflexivity|]. destruct (strip sp' l) as [|x v]; [reflexivity|].
  assert (E : match section_header (x :: v) with
    | Some name => if streq name DEFAULT then Ok (mkIni (is_all st) (Some name) None (indent_of sp' l))
        else match dict_get name (is_all st) with Some _ => Err RuntimeError | None => Ok (mkIni (is_all st ++ [(name, [])]) (Some name) None (indent_of sp' l)) end
    | None => match is_section st with None => Err RuntimeError | Some s => match cut_delimiter (x :: v) with None => Err RuntimeError | Some (before, after) =>
        match rstrip sp before with [] => Err RuntimeError | name => match dict_get (lower name) (raw_of (is_all st) s) with Some _ => Err RuntimeError
          | None => Ok (mkIni (dict_set s (dict_set (lower name) [strip sp after] (raw_of (is_all st) s)) (is_all st)) (Some s) (Some (lower name)) (indent_of sp' l)) end end end end end
   = match section_header (x :: v) with
    | Some name => if streq name DEFAULT then Ok (mkIni (is_all st) (Some name) None (indent_of sp' l))
        else match dict_get name (is_all st) with Some _ => Err RuntimeError | None => Ok (mkIni (is_all st ++ [(name, [])]) (Some name) None (indent_of sp' l)) end
    | None => match is_section st with None => Err RuntimeError | Some s => match cut_delimiter (x :: v) with None => Err RuntimeError | Some (before, after) =>
        match rstrip sp' before with [] => Err RuntimeError | name => match dict_get (lower' name) (raw_of (is_all st) s) with Some _ => Err RuntimeError
          | None => Ok (mkIni (dict_set s (dict_set (lower' name) [strip sp' after] (raw_of (is_all st) s)) (is_all st)) (Some s) (Some (lower' name)) (indent_of sp' l)) end end end end end).
  { destruct (section_header (x :: v)); [reflexivity|]. destruct (is_section st); [|reflexivity]. destruct (cut_delimiter (x :: v)) as [[before after]|]; [|reflexivity]. rewrite rstrip_ext.
    destruct (rstrip sp' before); [reflexivity|]. cbv zeta. now rewrite Hlo, strip_ext. }
  destruct (is_section st) as [s|], (is_option st) as [[|o0 o]|], (is_indent st <? indent_of sp' l); try reflexivity; exact E.
Qed.
Lemma foldM_ext {A B} (f g : B -> A -> res B) l : (forall b x, f b x = g b x) -> forall b, foldM f b l = foldM g b l.
Proof. intros H. induction l as [|x l IH]; intros b; [reflexivity|]. cbn. rewrite H. destruct (g b x); [apply IH|reflexivity]. Qed.
Lemma read_ini_ext text : read_ini sp lower text = read_ini sp' lower' text.
Proof.
  unfold read_ini. rewrite (foldM_ext _ _ _ read_line_ext). destruct (foldM _ _ _) as [st|]; [|reflexivity]. cbn [bind]. f_equal. apply map_ext. intros [s o]. cbn [fst snd]. f_equal. apply map_ext. intros [k v]. cbn [fst snd]. f_equal. apply rstrip_ext.
Qed.
Lemma mapM_ext {A B} (f g : A -> res B) l : (forall x, f x = g x) -> mapM f l = mapM g l.
Proof. intros H. induction l as [|x l IH]; [reflexivity|]. cbn. now rewrite H, IH. Qed.
Lemma interpolate_ext d depth : forall s, interpolate lower d depth s = interpolate lower' d depth s.
Proof.
  induction depth as [|k IHk]; intros s; [reflexivity|]. cbn [interpolate]. generalize (S (length s)). intros n. revert s. induction n as [|n IH]; intros s; [reflexivity|]. cbn [interpolate_loop].
  destruct s as [|x s]; [reflexivity|]. destruct (negb _); [now rewrite IH|]. destruct s as [|y s]; [reflexivity|]. destruct (N.eqb y ch_percent); [now rewrite IH|]. destruct (reference_at _) as [[name r]|]; [|reflexivity].
  rewrite Hlo. destruct (dict_get _ d) as [v|]; [|reflexivity]. destruct (has ch_percent v); [rewrite IHk|]; (destruct (interpolate lower' d k v) || idtac); cbn [bind]; now rewrite ?IH.
Qed.
Lemma get_items_ext ini s : get_items lower ini s = get_items lower' ini s.
Proof. unfold get_items. destruct (negb _); [reflexivity|]. apply mapM_ext. intros kv. now rewrite interpolate_ext. Qed.
Lemma mapping_ext text : parse_xml_mapping sp lower text = parse_xml_mapping sp' lower' text.
Proof. unfold parse_xml_mapping. rewrite read_ini_ext. destruct (read_ini sp' lower' text); [|reflexivity]. cbn [bind]. apply mapM_ext. intros s. now rewrite get_items_ext. Qed.
Lemma segmentation_ext ti pl od text : parse_segmentation_config sp lower ti pl od text = parse_segmentation_config sp' lower' ti pl od text.
Proof.
  unfold parse_segmentation_config. rewrite read_ini_ext. destruct (read_ini sp' lower' text) as [ini|]; [|reflexivity]. cbn [bind]. unfold getint. rewrite !Hlo, get_items_ext. destruct (negb _); [reflexivity|].
  destruct (dict_get _ _); destruct (dict_get _ _); rewrite ?interpolate_ext; reflexivity.
Qed.
End Ext.
(** functions that are computed for ASCII *)
Definition space_or (sp : N -> bool) (c : N) : bool := if N.ltb c 128 then ascii_space c else sp c.
Definition lower_or (lower : str -> str) (s : str) : str := if ascii_text s then lower_letters s else lower s.
Lemma space_or_ext sp : usual_space sp -> forall c, sp c = space_or sp c.
Proof. intros H c. unfold space_or. destruct (N.ltb_spec c 128); [now apply H|reflexivity]. Qed.
Lemma lower_or_ext lower : usual_lower lower -> forall s, lower s = lower_or lower s.
Proof. intros H s. unfold lower_or. destruct (ascii_text s) eqn:E; [now apply H|reflexivity]. Qed.
Lemma shipped_mapping sp lower : usual_space sp -> usual_lower lower -> parse_xml_mapping sp lower xml_mapping_conf = Ok [(u "article", article)].
Proof. intros Hs Hl. rewrite (mapping_ext sp (space_or sp) lower (lower_or lower)) by auto using space_or_ext, lower_or_ext. vm_compute. reflexivity. Qed.
Lemma shipped_segments sp lower ti pl od : usual_space sp -> usual_lower lower ->
  parse_segmentation_config sp lower ti pl od segmentation_conf = Ok (mkSegConfig (map (fun kv => (fst kv, od (pl (snd kv)))) segment_options) 0 50 false).
Proof. intros Hs Hl. rewrite (segmentation_ext sp (space_or sp) lower (lower_or lower)) by auto using space_or_ext, lower_or_ext. vm_compute. reflexivity. Qed.

(* ---------------------------------------------------------------- *)
(** ** Fields, options and segments *)
(** the options of a field that are read anywhere *)
Definition known_options : list string :=
  [".ignore"; ".children"; ".children.concat"; ".children.range"; ".regex"; ".extract-regex"; ".priority"; ".use-raw-text"; ".unmatched-parent-text";
   ".match-multiple"; ".bonding"; ".require-next"; ".match-prefix-regex"; ".alternative-spellings"; ".merge"; ".extend-to-line"; ".max_chunks"; ".block"]%string.
Definition known_key (o : options) (key : str) : Prop :=
  exists f, In f (map fst o) /\ PropMapping.plain_name f /\
    (key = f \/ (exists s, In s known_options /\ key = f ++ u s) \/ exists n, PropMapping.plain_name n /\ n <> [] /\ key = f ++ u ".sub." ++ n).
Definition known_check (o : options) (key : str) : bool :=
  let f := field_name key in
  mem f (map fst o) && negb (has ch_dot f) &&
  (streq key f || existsb (fun s => streq key (f ++ u s)) known_options
   || (let n := skipn (length f + 5) key in streq key (f ++ u ".sub." ++ n) && negb (has ch_dot n) && match n with [] => false | _ => true end)).
Lemma known_spec o key : known_check o key = true -> known_key o key.
Proof.
  unfold known_check. set (f := field_name key). intros H. apply andb_true_iff in H as [H H3]. apply andb_true_iff in H as [H1 H2]. exists f. split; [now apply mem_spec|].
  split; [apply negb_true_iff in H2; now apply has_false|]. apply orb_true_iff in H3 as [H3|H3]; [apply orb_true_iff in H3 as [H3|H3]|].
  - left. now apply streq_true.
  - right. left. apply existsb_exists in H3 as (s & Hs & E). exists s. split; [exact Hs|now apply streq_true].
  - right. right. cbv zeta in H3. apply andb_true_iff in H3 as [H3 H5]. apply andb_true_iff in H3 as [H3 H4]. apply streq_true in H3. apply negb_true_iff in H4. apply has_false in H4.
    eexists. split; [exact H4|]. split; [|exact H3]. intros E. rewrite E in H5. discriminate.
Qed.
Theorem C99_mapping : forall sp lower, usual_space sp -> usual_lower lower -> parse_xml_mapping sp lower xml_mapping_conf = Ok [(u "article", article)] /\
  NoDup (map fst article) /\ (forall key, In key (map fst article) -> known_key article key) /\
  (forall c f, In f (default_fields c) -> exists v, In (f, v) article /\ v <> []).
Proof.
  intros sp lower Hs Hl. split; [now apply shipped_mapping|]. split; [|split].
  - apply (proj2 (NoDup_count_occ' (list_eq_dec N.eq_dec) _)). intros x Hx.
    assert (E : forallb (fun k => Nat.eqb (count_occ (list_eq_dec N.eq_dec) (map fst article) k) 1) (map fst article) = true) by (vm_compute; reflexivity).
    rewrite forallb_forall in E. now apply Nat.eqb_eq, E.
  - intros key Hk. apply known_spec. assert (E : forallb (known_check article) (map fst article) = true) by (vm_compute; reflexivity). rewrite forallb_forall in E. now apply E.
  - intros c f Hf. assert (E : forallb (fun f => existsb (fun kv => streq (fst kv) f && match snd kv with [] => false | _ => true end) article) (default_fields c) = true) by (destruct c; vm_compute; reflexivity).
    rewrite forallb_forall in E. apply E, existsb_exists in Hf as ([k v] & Hin & W). apply andb_true_iff in W as [W1 W2]. apply streq_true in W1. cbn [fst snd] in *. subst. exists v. split; [exact Hin|]. now intros ->.
Qed.
(** Tags of the default fields and their sub fields have a place in the documents that are saved. *)
Definition merged_sub_tags (c : command) : list str :=
  match c with CReference => [u "reference-fpage"; u "reference-lpage"; u "reference-etal"] | _ => [] end.
Lemma command_eq_fulltext c : c = CFulltext \/ c <> CFulltext.
Proof. destruct c; (now left) || (right; discriminate). Qed.
Theorem C99_paths : forall c f, In f (default_fields c) -> c <> CSegmentation ->
  In f (map fst (base_mapping c)) /\
  (c <> CReferenceSegmenter -> forall n v, In (f ++ u ".sub." ++ n, v) article -> In n (map fst (base_mapping c)) \/ In n (merged_sub_tags c) \/ (c = CFulltext /\ ~ In n (default_sub_fields c))).
Proof.
  intros c f Hf Hc. split.
  - assert (E : forallb (fun f => mem f (map fst (base_mapping c))) (default_fields c) = true) by (destruct c; try easy; vm_compute; reflexivity).
    rewrite forallb_forall in E. now apply mem_spec, E.
  - intros Hc' n v H. assert (P : PropMapping.plain_name f).
    { assert (E : forallb (fun f => negb (has ch_dot f)) (default_fields c) = true) by (destruct c; vm_compute; reflexivity). rewrite forallb_forall in E. now apply has_false, negb_true_iff, E. }
    destruct (mem n (map fst (base_mapping c))) eqn:M1; [left; now apply mem_spec|]. destruct (mem n (merged_sub_tags c)) eqn:M2; [right; left; now apply mem_spec|].
    destruct (command_eq_fulltext c) as [->|Nc].
    + right. right. split; [reflexivity|]. apply mem_false in M1. intros W. apply M1. vm_compute in W. vm_compute. exact W.
    + exfalso. assert (E : forallb (fun kv => let g := field_name (fst kv) in let n := skipn (length g + 5) (fst kv) in
        implb (streq (fst kv) (g ++ u ".sub." ++ n) && mem g (default_fields c)) (mem n (map fst (base_mapping c)) || mem n (merged_sub_tags c))) article = true) by (destruct c; try easy; vm_compute; reflexivity).
      rewrite forallb_forall in E. specialize (E _ H). cbv zeta in E. cbn [fst] in E.
      assert (G : field_name (f ++ u ".sub." ++ n) = f) by (apply (field_name_spec _ f P); right; now exists (u "sub." ++ n)). rewrite G in E.
      assert (S : skipn (length f + 5) (f ++ u ".sub." ++ n) = n) by (rewrite app_assoc; replace (length f + 5) with (length (f ++ u ".sub.")) by (rewrite app_length; reflexivity); rewrite skipn_app, skipn_all, Nat.sub_diag; reflexivity).
      rewrite S, streq_refl, (proj2 (mem_spec f _) Hf), M1, M2 in E. discriminate.
Qed.

(** Every default field of the segmentation command is in exactly one segment, and the segments but one have a path in the documents that are saved or
    (front) are the name of an element. *)
Lemma comma_ext sp sp' s : (forall c, sp c = sp' c) -> comma_list sp s = comma_list sp' s.
Proof. intros H. unfold comma_list. rewrite (strip_ext sp sp' H). destruct (strip sp' s); [reflexivity|]. apply map_ext. intros x. now apply strip_ext. Qed.
Definition in_segment (c : seg_config) (f n : str) : Prop := exists tags, In (n, tags) (sc_mapping c) /\ In f tags.
Theorem C99_segments : forall sp lower to_int order, usual_space sp -> usual_lower lower -> (forall l x, In x (order l) <-> In x l) ->
  exists c, parse_segmentation_config sp lower to_int (comma_list sp) order segmentation_conf = Ok c /\ sc_front_max c = 0%Z /\ sc_header_max c = 50%Z /\
    (forall f, In f (default_fields CSegmentation) -> exists n, in_segment c f n /\ forall n', in_segment c f n' -> n' = n) /\
    (forall n, In n (map fst (sc_mapping c)) -> In n (map fst (base_mapping CSegmentation)) \/ n = u "front" \/ n = u "listbibl").
Proof.
  intros sp lower ti od Hs Hl Ho. eexists. split; [now apply shipped_segments|]. split; [reflexivity|]. split; [reflexivity|]. split.
  - intros f Hf. set (pairs := flat_map (fun kv => map (fun x => (x, fst kv)) (comma_list (space_or sp) (snd kv))) segment_options).
    assert (I : forall n, in_segment (mkSegConfig (map (fun kv => (fst kv, od (comma_list sp (snd kv)))) segment_options) 0 50 false) f n <-> In (f, n) pairs).
    { intros n. unfold in_segment, pairs. cbn [sc_mapping]. rewrite in_flat_map. split.
      - intros (tags & H & Hin). apply in_map_iff in H as ([k v] & [= <- <-] & H). cbn [fst snd] in *. exists (k, v). split; [exact H|]. apply (proj1 (Ho _ _)) in Hin. apply in_map_iff. exists f. split; [reflexivity|]. cbn [snd]. now rewrite <- (comma_ext sp (space_or sp) v (space_or_ext sp Hs)).
      - intros ([k v] & H & Hin). apply in_map_iff in Hin as (x & [= -> ->] & Hin). cbn [fst snd] in *. exists (od (comma_list sp v)). split; [apply in_map_iff; now exists (n, v)|]. apply Ho. now rewrite (comma_ext sp (space_or sp) v (space_or_ext sp Hs)). }
    assert (E : forallb (fun f => match filter (fun p => streq (fst p) f) pairs with [_] => true | _ => false end) (default_fields CSegmentation) = true) by (vm_compute; reflexivity).
    rewrite forallb_forall in E. specialize (E f Hf). cbv beta in E. destruct (filter (fun p => streq (fst p) f) pairs) as [|[x n] [|? ?]] eqn:Q; [discriminate| |discriminate].
    assert (G : forall n', In (f, n') pairs <-> In (f, n') [(x, n)]) by (intros n'; rewrite <- Q, filter_In; cbn [fst]; rewrite streq_refl; tauto).
    assert (W : In (x, n) pairs /\ streq x f = true) by (rewrite <- (filter_In (fun p => streq (fst p) f)), Q; now left). destruct W as [_ W]. apply streq_true in W. subst x.
    exists n. split; [apply I, G; now left|]. intros n' H. apply I, G in H as [[= H]|[]]. now symmetry.
  - intros n Hn. cbn [sc_mapping] in Hn. rewrite map_map in Hn. cbn [fst] in Hn.
    assert (E : forallb (fun n => mem n (map fst (base_mapping CSegmentation)) || (streq n (u "front") || streq n (u "listbibl"))) (map fst segment_options) = true) by (vm_compute; reflexivity).
    rewrite forallb_forall in E. apply E, orb_true_iff in Hn as [H|H]; [left; now apply mem_spec|right]. apply orb_true_iff in H as [H|H]; apply streq_true in H; auto.
Qed.
Theorem C99_segments_refuted : exists c n, parse_segmentation_config ascii_space lower_letters ex_int (comma_list ascii_space) (fun l => l) segmentation_conf = Ok c /\
  In n (map fst (sc_mapping c)) /\ ~ In n (map fst (base_mapping CSegmentation)) /\ n <> u "front".
Proof.
  eexists. exists (u "listbibl"). split; [vm_compute; reflexivity|]. split; [vm_compute; repeat (first [left; reflexivity|right])|]. split; [vm_compute; intuition discriminate|discriminate].
Qed.

(* ---------------------------------------------------------------- *)
(** ** Runs with these files *)
Lemma ends_with_app k s : ends_with s (k ++ s) = true.
Proof. unfold ends_with. rewrite rev_app_distr. apply starts_with_spec. now exists (rev k). Qed.
(** the values of an option are among these *)
Lemma shipped_values (suffix : string) allowed : forallb (fun kv => implb (ends_with (u suffix) (fst kv)) (mem (snd kv) allowed)) article = true ->
  forall k v, In (k ++ u suffix, v) article -> In v allowed.
Proof. intros E k v H. rewrite forallb_forall in E. specialize (E _ H). cbn [fst snd] in E. rewrite ends_with_app in E. now apply mem_spec. Qed.
Lemma shipped_fields c o : o_overrides o = [] ->
  exists m, fst (command_fields c [(u "article", article)] o) = [(u "article", m)] /\ incl m article /\ NoDup (map fst m).
Proof.
  intros Ho. assert (N : NoDup (map fst article)) by exact (proj1 (proj2 (C99_mapping _ _ (fun _ _ => eq_refl) (fun _ _ => eq_refl)))).
  assert (F : forall keep (m : options), NoDup (map fst m) -> NoDup (map fst (filter keep m))).
  { intros keep m. induction m as [|[k v] m IH]; [constructor|]. cbn [map fst]. intros H. inversion H as [|? ? H1 H2]. subst. cbn [filter]. destruct (keep (k, v)); [|now apply IH].
    cbn [map fst]. constructor; [|now apply IH]. intros W. apply H1. apply in_map_iff in W as (kv & <- & W). apply filter_In in W as [W _]. now apply in_map. }
  assert (G : forall keep m, incl m article -> NoDup (map fst m) -> exists m', filter_options keep [(u "article", m)] = [(u "article", m')] /\ incl m' article /\ NoDup (map fst m')).
  { intros keep m I1 I2. unfold filter_options. cbn [map fst snd]. eexists. split; [reflexivity|]. split; [|now apply F]. intros kv H. apply filter_In in H as [H _]. now apply I1. }
  unfold command_fields. rewrite Ho. cbn [mapping_with_overrides]. unfold filtered_mapping_and_fields, filter_sub_fields. cbn [fst].
  assert (A : forall (M : mapping) m sub, M = [(u "article", m)] -> incl m article -> NoDup (map fst m) -> exists m', match sub with [] => M | _ => filter_options (sub_selected sub) M end = [(u "article", m')] /\ incl m' article /\ NoDup (map fst m')).
  { intros M m [|x sub] -> I1 I2; [now exists m|now apply G]. }
  destruct (o_fields o) as [|f fs].
  - exact (A _ article _ eq_refl (incl_refl _) N).
  - destruct (G (fun k => mem (field_name k) (f :: fs)) article (incl_refl _) N) as (m & E & I1 & I2). cbv zeta. exact (A _ m _ E I1 I2).
Qed.
(** library functions that are as usual for what the mapping contains *)
Definition line_end (c : N) : bool := N.eqb c 10 || N.eqb c 11 || N.eqb c 12 || N.eqb c 13 || N.eqb c 28 || N.eqb c 29 || N.eqb c 30.
Definition reads_shipped (b : libs) (rd : readers) (t : target_doc) : Prop :=
  usual_space (lb_sp b) /\ usual_lower (lb_lower b) /\ (forall c, (c < 128)%N -> rd_lb rd c = line_end c) /\
  lb_int b (u "1") = Some 1%Z /\ lb_int b (u "2") = Some 2%Z /\
  (forall k s, In (k ++ u ".children.concat", s) article -> exists r, rd_json_concat rd s = Ok r) /\
  (forall k s, In (k ++ u ".children.range", s) article -> exists r, rd_json_range rd s = Ok r) /\
  (forall k s, In (k ++ u ".match-prefix-regex", s) article -> rd_compiles rd s = true) /\
  (forall k e x, PropMapping.plain_name k -> expression (lb_sp b) (rd_json_concat rd) (rd_json_range rd) article k x -> exists l, td_xpath t e x = Ok l).
Definition lines_or (lb : N -> bool) (c : N) : bool := if N.ltb c 128 then line_end c else lb c.
Lemma spellings_ext sp sp' lb lb' s : (forall c, sp c = sp' c) -> (forall c, lb c = lb' c) -> parse_alternative_spellings sp lb s = parse_alternative_spellings sp' lb' s.
Proof.
  intros H1 H2. unfold parse_alternative_spellings.
  assert (E : split_lines lb s = split_lines lb' s) by (induction s as [|c s IH]; [reflexivity|]; cbn [split_lines]; now rewrite H2, IH). rewrite E.
  apply foldM_ext. intros d l. rewrite (strip_ext sp sp' H1). destruct (strip sp' l) as [|c w]; [reflexivity|]. cbv zeta. destruct (cut ch_eq (c :: w)) as [[k v]|]; [|reflexivity]. now rewrite !(strip_ext sp sp' H1).
Qed.
Lemma shipped_in m k v : NoDup (map fst article) -> incl m article -> dict_get k m = Some v -> In (k, v) article /\ dict_get k article = Some v.
Proof.
  intros N I H. apply dict_get_In in H. apply I in H. split; [exact H|]. clear I. induction article as [|[k' v'] a IH]; [easy|]. cbn [map fst] in N. inversion N as [|? ? N1 N2]. subst.
  cbn [dict_get]. destruct H as [[= -> ->]|H]; [now rewrite streq_refl|]. destruct (streq k k') eqn:E; [|now apply IH]. apply streq_true in E. subst. exfalso. apply N1. exact (in_map fst _ _ H).
Qed.
Lemma shipped_readable b rd c o t : reads_shipped b rd t -> td_tag t = u "article" -> o_overrides o = [] ->
  readable_mapping b rd c o (fst (command_fields c [(u "article", article)] o)) t /\
    forall m k, dict_get (td_tag t) (fst (command_fields c [(u "article", article)] o)) = Some m -> no_sub_regex m k.
Proof.
  intros (Hs & Hl & Hlb & H1 & H2 & Hc & Hr & Hx & Hp) Ht Ho.
  destruct (shipped_fields c o Ho) as (m & Em & I & N). rewrite Em, Ht.
  assert (NA : NoDup (map fst article)) by exact (proj1 (proj2 (C99_mapping _ _ (fun _ _ => eq_refl) (fun _ _ => eq_refl)))).
  assert (V : forall k v, dict_get k m = Some v -> In (k, v) article /\ dict_get k article = Some v) by (intros k v; now apply shipped_in).
  assert (No : forall suffix, forallb (fun kv => implb (ends_with (u suffix) (fst kv)) (mem (snd kv) [])) article = true -> forall k, dict_get (k ++ u suffix) m = None).
  { intros suffix E k. destruct (dict_get (k ++ u suffix) m) as [v|] eqn:G; [|reflexivity]. apply V in G as [G _]. now apply (shipped_values suffix [] E) in G. }
  assert (X : forall k, dict_get (k ++ u ".extract-regex") m = None) by (apply No; vm_compute; reflexivity).
  assert (X' : forall k, option_of m k ".extract-regex" = None) by (intros k; apply X).
  split; [split|].
  - exists m. split; [rewrite Ht; reflexivity|]. intros k Hk Pk. split; [|split].
    + unfold good_options, option_of. rewrite X, (No ".regex"%string), (No ".use-raw-text"%string) by (vm_compute; reflexivity). cbn [readable regex_ok].
      split; [|split; [|split; [exact Logic.I|split; [exact Logic.I|split; [|exact Logic.I]]]]].
      * destruct (dict_get (k ++ u ".children.concat") m) as [[|x s]|] eqn:E; [exact Logic.I| |exact Logic.I]. apply V in E as [E _]. now apply (Hc k).
      * destruct (dict_get (k ++ u ".children.range") m) as [[|x s]|] eqn:E; [exact Logic.I| |exact Logic.I]. apply V in E as [E _]. now apply (Hr k).
      * destruct (dict_get (k ++ u ".priority") m) as [s|] eqn:E; [|exact Logic.I]. apply V in E as [E _].
        apply (shipped_values ".priority" [u "1"]) in E; [|vm_compute; reflexivity]. destruct E as [<-|[]]. now rewrite H1.
    + intros n _ _. unfold regex_ok. now rewrite X'.
    + intros e x E. apply (Hp k e x Pk). destruct E as [E|[E|[E|[E|[E|E]]]]].
      * left. destruct (dict_get k m) as [v|] eqn:G; [|easy]. apply V in G as [_ ->]. exact E.
      * right. left. unfold option_of in *. destruct (dict_get _ m) as [v|] eqn:G; [|easy]. apply V in G as [_ ->]. exact E.
      * right. right. left. unfold option_of in *. destruct (dict_get _ m) as [v|] eqn:G; [|easy]. apply V in G as [_ ->]. exact E.
      * right. right. right. left. destruct E as (n & En & E). exists n. split; [exact En|now apply I].
      * right. right. right. right. left. destruct E as (s & items & item & source & E & E'). exists s, items, item, source. split; [|exact E']. unfold option_of in *. now apply V in E as [_ ->].
      * right. right. right. right. right. destruct E as (s & items & item & E & E'). exists s, items, item. split; [|exact E']. unfold option_of in *. now apply V in E as [_ ->].
  - intros _ f Hf.
    assert (T : lb_lower b (u "True") = u "true") by (rewrite Hl; vm_compute; reflexivity).
    assert (G : exists cfg, tag_config_of (lb_sp b) (rd_lb rd) (lb_lower b) (rd_compiles rd) (lb_int b) (flat_config [(u "article", m)]) f = Ok cfg).
    { assert (D : forall key v, dict_get key (flat_config [(u "article", m)]) = Some v -> In (key, v) article).
      { intros key v G. apply I. apply dict_get_In. apply (proj2 (given_iff [(u "article", m)] key (Some v))) in G as (p & q & E & Nq). cbn [flat_map snd] in E. rewrite app_nil_r in E. rewrite E in *.
        clear - Nq N. rewrite map_app in N. cbn [map fst] in N. apply NoDup_remove_2 in N. induction p as [|[k' v'] p IH]; cbn [app dict_get]; [now rewrite streq_refl|]. cbn [map fst app] in N.
        destruct (streq key k') eqn:E; [apply streq_true in E; subst; exfalso; apply N; now left|]. apply IH. intros W. apply N. now right. }
      unfold tag_config_of.
      change (option_key f (u "match-prefix-regex")) with (f ++ u ".match-prefix-regex"). change (option_key f (u "alternative-spellings")) with (f ++ u ".alternative-spellings").
      change (option_key f (u "merge")) with (f ++ u ".merge"). change (option_key f (u "extend-to-line")) with (f ++ u ".extend-to-line").
      change (option_key f (u "max_chunks")) with (f ++ u ".max_chunks"). change (option_key f (u "block")) with (f ++ u ".block").
      assert (G1 : exists r, parse_regex (rd_compiles rd) (dict_get (f ++ u ".match-prefix-regex") (flat_config [(u "article", m)])) = Ok r).
      { destruct (dict_get _ _) as [[|x s]|] eqn:G; [now exists (Some [])| |now exists None]. apply D in G. pose proof (Hx _ _ G) as C. unfold parse_regex.
        assert (Q : quoted (x :: s) = false).
        { assert (E : forallb (fun kv => implb (ends_with (u ".match-prefix-regex") (fst kv)) (negb (quoted (snd kv)))) article = true) by (vm_compute; reflexivity).
          rewrite forallb_forall in E. specialize (E _ G). cbn [fst snd] in E. rewrite ends_with_app in E. now apply negb_true_iff. }
        cbv zeta. rewrite Q, C. eexists. reflexivity. }
      destruct G1 as [r ->]. cbn [bind].
      assert (G2 : exists l, match dict_get (f ++ u ".alternative-spellings") (flat_config [(u "article", m)]) with None | Some [] => Ok [] | Some s => parse_alternative_spellings (lb_sp b) (rd_lb rd) s end = Ok l).
      { destruct (dict_get _ _) as [[|x s]|] eqn:G; [now exists []| |now exists []]. apply D in G. apply (shipped_values _ [10%N :: u "United States=USA"]) in G; [|vm_compute; reflexivity].
        destruct G as [<-|[]]. rewrite (spellings_ext _ (space_or (lb_sp b)) _ (lines_or (rd_lb rd))); [eexists; vm_compute; reflexivity|now apply space_or_ext|].
        intros ch. unfold lines_or. destruct (N.ltb_spec ch 128); [now apply Hlb|reflexivity]. }
      destruct G2 as [l ->]. cbn [bind].
      assert (B : forall suffix, forallb (fun kv => implb (ends_with (u suffix) (fst kv)) (mem (snd kv) [u "true"; u "false"])) article = true ->
        exists x, strtobool (lb_lower b) match dict_get (f ++ u suffix) (flat_config [(u "article", m)]) with Some s => s | None => u "True" end = Ok x).
      { intros suffix E. destruct (dict_get _ _) as [v|] eqn:G.
        - apply D in G. apply (shipped_values suffix _ E) in G as [<-|[<-|[]]]; unfold strtobool; rewrite Hl by reflexivity; eexists; vm_compute; reflexivity.
        - unfold strtobool. rewrite T. eexists. vm_compute. reflexivity. }
      destruct (B ".merge"%string) as [x ->]; [vm_compute; reflexivity|]. cbn [bind]. destruct (B ".extend-to-line"%string) as [y ->]; [vm_compute; reflexivity|]. cbn [bind].
      destruct (dict_get (f ++ u ".max_chunks") _) as [v|] eqn:G; [|rewrite H1; cbn [bind]; eexists; reflexivity].
      apply D in G. apply (shipped_values ".max_chunks" [u "2"]) in G; [|vm_compute; reflexivity]. destruct G as [<-|[]]. rewrite H2. cbn [bind]. eexists. reflexivity. }
    destruct G as [cfg G]. exists cfg. now apply (C86_field _ _ _ _ _ T H1).
  - intros m' k [= <-] n _ _. unfold option_of in *. now rewrite X.
Qed.

Theorem C99_readable : forall b rd c o t, reads_shipped b rd t -> td_tag t = u "article" -> o_overrides o = [] ->
  exists xm, parse_xml_mapping (lb_sp b) (lb_lower b) xml_mapping_conf = Ok xm /\ readable_mapping b rd c o (fst (command_fields c xm o)) t /\
    forall m k, dict_get (td_tag t) (fst (command_fields c xm o)) = Some m -> no_sub_regex m k.
Proof.
  intros b rd c o t H Ht Ho. pose proof H as (Hs & Hl & _). exists [(u "article", article)]. split; [now apply shipped_mapping|]. now apply shipped_readable.
Qed.
Lemma segment_names (g : str -> list str) (l : options) c : Ok (mkSegConfig (map (fun kv => (fst kv, g (snd kv))) l) 0 50 false) = Ok c -> forall n, In n (map fst (sc_mapping c)) -> In n (map fst l).
Proof. intros [= <-] n H. cbn [sc_mapping] in H. apply in_map_iff in H as (x & <- & H). apply in_map_iff in H as (kv & <- & H). exact (in_map fst _ _ H). Qed.
Lemma shipped_plain f : In f (map fst article) -> plain_field f.
Proof.
  intros H. assert (E : forallb (fun f => match f with [] => false | _ => true end && forallb value_char f && forallb (fun x => negb (N.eqb x 47 || N.eqb x 123 || N.eqb x 125)) f) (map fst article) = true) by (vm_compute; reflexivity).
  rewrite forallb_forall in E. apply E in H. apply andb_true_iff in H as [H H3]. apply andb_true_iff in H as [H1 H2]. split; [now intros ->|]. split; [exact H2|]. intros x Hx.
  rewrite forallb_forall in H3. specialize (H3 _ Hx). apply negb_true_iff in H3. rewrite !orb_false_iff, !N.eqb_neq in H3. tauto.
Qed.
Lemma shipped_names f : In f (map fst article) -> PropMapping.plain_name f -> starts_with (u "b-") f = false /\ starts_with (u "i-") f = false /\ xml_name f = true.
Proof.
  intros H P. assert (E : forallb (fun f => implb (negb (has ch_dot f)) (negb (starts_with (u "b-") f) && negb (starts_with (u "i-") f) && xml_name f)) (map fst article) = true) by (vm_compute; reflexivity).
  rewrite forallb_forall in E. apply E in H. rewrite (proj2 (has_false _ _) P) in H. cbn [negb implb] in H. apply andb_true_iff in H as [H H3]. apply andb_true_iff in H as [H1 H2]. now rewrite <- negb_true_iff, <- (negb_true_iff (starts_with (u "i-") f)).
Qed.
Lemma shipped_sub_names f k : PropMapping.plain_name f -> PropMapping.plain_name k -> In (f ++ u ".sub." ++ k) (map fst article) -> starts_with (u "b-") k = false /\ starts_with (u "i-") k = false /\ xml_name k = true.
Proof.
  intros Pf P G.
    assert (E : forallb (fun key => let g := field_name key in let n := skipn (length g + 5) key in implb (streq key (g ++ u ".sub." ++ n) && negb (has ch_dot n)) (negb (starts_with (u "b-") n) && negb (starts_with (u "i-") n) && xml_name n)) (map fst article) = true) by (vm_compute; reflexivity).
    rewrite forallb_forall in E. specialize (E _ G). cbv zeta in E.
    assert (Q : field_name (f ++ u ".sub." ++ k) = f) by (apply (field_name_spec _ f Pf); right; now exists (u "sub." ++ k)). rewrite Q in E.
    assert (S : skipn (length f + 5) (f ++ u ".sub." ++ k) = k) by (rewrite app_assoc; replace (length f + 5) with (length (f ++ u ".sub.")) by (rewrite app_length; reflexivity); rewrite skipn_app, skipn_all, Nat.sub_diag; reflexivity).
    rewrite S, streq_refl, (proj2 (has_false _ _) P) in E. cbn [negb implb andb] in E. apply andb_true_iff in E as [E E3]. apply andb_true_iff in E as [E1 E2]. apply negb_true_iff in E1, E2. auto.
Qed.
Lemma segment_name_ok n : In n (map fst segment_options) -> starts_with (u "b-") n = false /\ starts_with (u "i-") n = false /\ xml_name n = true.
Proof.
  intros H.
    assert (E : forallb (fun n => negb (starts_with (u "b-") n) && negb (starts_with (u "i-") n) && xml_name n) (map fst segment_options) = true) by (vm_compute; reflexivity).
    rewrite forallb_forall in E. specialize (E _ H). cbv beta in E. apply andb_true_iff in E as [E E3]. apply andb_true_iff in E as [E1 E2]. apply negb_true_iff in E1, E2. auto.
Qed.
Lemma section_fields c tag (a : options) o f : o_overrides o = [] -> In f (snd (command_fields c [(tag, a)] o)) -> In f (map fst a) \/ In f (o_fields o).
Proof.
  intros Ho H. unfold command_fields, filtered_mapping_and_fields in H. cbn [snd] in H. rewrite Ho in H. cbn [mapping_with_overrides] in H. destruct (o_fields o) as [|g l]; [left|now right].
  cbn [flat_map snd] in H. rewrite app_nil_r in H. now apply filter_In in H as [H _].
Qed.
Lemma section_given tag (a : options) o key : o_overrides o = [] -> given_option [(tag, a)] o key -> In key (map fst a).
Proof. intros Ho (sec & [<-|[]] & [H|H]); [exact H|]. now rewrite Ho in H. Qed.
Theorem C99_saves : forall b rd c up lo node_ok o i t root,
  reads_shipped b rd t -> searches b -> usual_readers b rd -> ascii_right (lb_wd b) -> accepts_usual node_ok ->
  proper_options b c o i -> o_overrides o = [] -> td_tag t = u "article" ->
  (forall f, In f (o_fields o) -> In f (map fst article) \/ plain_field f) ->
  parse_segmentation_config (lb_sp b) (lb_lower b) (lb_int b) (comma_list (lb_sp b)) (rd_order rd) segmentation_conf = Ok (in_segmentation i) ->
  forallb loadable (find_all (container c) root) = true -> find_all (container c) root <> [] ->
  (forall e x, In e (find_all (container c) root) -> below e x -> plain_elem node_ok x) ->
  exists xm r n, parse_xml_mapping (lb_sp b) (lb_lower b) xml_mapping_conf = Ok xm /\ forall m, n <= m -> run_tree b rd c up lo node_ok xm o (with_fuel m i) t root = Ok r.
Proof.
  intros b rd c up lo node_ok o i t root Hr Hb Hu Hw Ha Hp Ho Ht Hf Hseg Hl Hc He.
  destruct (shipped_readable b rd c o t Hr Ht Ho) as (Hm & Hno). exists [(u "article", article)]. pose proof Hr as (Hs & Hlo & _).
  assert (W : forall ch, ws4 ch = true -> lb_sp b ch = true).
  { intros ch H. unfold ws4 in H. rewrite !orb_true_iff, !N.eqb_eq in H. destruct H as [[[->| ->]| ->]| ->]; rewrite Hs by reflexivity; reflexivity. }
  assert (GO : forall key, given_option [(u "article", article)] o key -> In key (map fst article)) by (intros key; exact (section_given _ _ _ _ Ho)).
  destruct (C90_saves b rd W c up lo node_ok [(u "article", article)] o i t root Hb Hu Hw Ha Hp Hm) as (r & n & R); try assumption.
  - intros _ _ m k. apply Hno.
  - intros f H. right. apply (section_fields _ _ _ _ _ Ho) in H as [H|H]; [now apply shipped_plain|]. destruct (Hf _ H) as [G|G]; [now apply shipped_plain|exact G].
  - intros f (P & G & _). destruct (shipped_names f (GO _ G) P) as (X1 & X2 & X3). auto.
  - intros k (f & P & (Pf & _) & G & _). apply GO in G.
    destruct (shipped_sub_names f k Pf P G) as (X1 & X2 & X3). auto.
  - intros k H0. pose proof (eq_trans (eq_sym (shipped_segments _ _ _ _ _ Hs Hlo)) Hseg) as H1. pose proof (segment_names (fun s => rd_order rd (comma_list (lb_sp b) s)) _ _ H1 _ H0) as H. clear H0 H1 Hseg.
    destruct (segment_name_ok _ H) as (X1 & X2 & X3). split; [exact X1|]. split; [exact X2|]. right. now right.
  - exists r, n. split; [now apply shipped_mapping|exact R].
Qed.
(** Example: figures with their labels and captions *)
Definition ship_readers : readers :=
  mkReaders line_end (fun _ => true) digit_str (fun s => Ok [[mkSource (Some (u "./label")) None; mkSource None (Some (u " ")); mkSource (Some (u "./caption")) None]]) no_json no_group no_spans (@rev str).
Definition ship_target : target_doc :=
  mkTargetDoc (u "article") (El [] [El [] [El [] [leaf_el "Fig 1"; leaf_el "stones"] []] []] [])
    (fun e x => if streq x (u "//fig") then Ok [[0; 0]] else if streq x (u "./label") then Ok [e ++ [0]] else if streq x (u "./caption") then Ok [e ++ [1]]
                else if streq x (u "./label | ./caption") then Ok [e ++ [0]; e ++ [1]] else Ok [])
    all_content.
Definition ship_opts : cmd_options :=
  mkOpts (default_fields CFigure) (default_sub_fields CFigure) [] false [] [] false [] true 200 false (mkCli 2 3 None) false false false false false false false.
Definition ship_inputs : inputs :=
  mkInputs [] [] [] (match parse_segmentation_config ascii_space lower_ascii PropLineNumbers.ascii_int (comma_list ascii_space) (@rev str) segmentation_conf with Ok c => c | Err _ => mkSegConfig [] 0 0 false end)
    half DEFAULT_SEQ_FILTER DEFAULT_CHOICE_FILTER DEFAULT_MAX_MATCH_GAP 0.
Example C99_ex : exists xm, parse_xml_mapping ascii_space lower_ascii xml_mapping_conf = Ok xm /\
  run_tree real_libs ship_readers CFigure ascii_upper ascii_lower usual xm ship_opts (with_fuel 20 ship_inputs) ship_target fig_source =
    Ok (Elem (u "tei") [] [] [Elem (u "text") [] []
          [Elem (u "figure") [] [] [Elem (u "head") [] [] [Elem (u "label") [] (u "Fig 1") [] []] (u " "); Elem (u "figDesc") [] (u "stones") [] []] (u " ");
           Elem (u "note") [(u "type", u "other")] (u "page") [] []] []] []).
Proof. exists [(u "article", article)]. split; [now apply shipped_mapping|vm_compute; reflexivity]. Qed.
Example C99_ex_reads : reads_shipped real_libs ship_readers ship_target /\ usual_readers real_libs ship_readers /\ td_tag ship_target = u "article" /\ o_overrides ship_opts = [] /\
  (forall f, In f (o_fields ship_opts) -> In f (map fst article)) /\
  parse_segmentation_config (lb_sp real_libs) (lb_lower real_libs) (lb_int real_libs) (comma_list (lb_sp real_libs)) (rd_order ship_readers) segmentation_conf = Ok (in_segmentation ship_inputs).
Proof.
  split; [|split; [|split; [reflexivity|split; [reflexivity|split]]]].
  - split; [intros c _; reflexivity|]. split; [intros s _; reflexivity|]. split; [intros c _; reflexivity|]. split; [reflexivity|]. split; [reflexivity|].
    split; [intros k s _; eexists; reflexivity|]. split; [intros k s _; eexists; reflexivity|]. split; [intros k s _; reflexivity|].
    intros k e x _ _. cbn [td_xpath ship_target]. repeat destruct (streq _ _); eexists; reflexivity.
  - split; [|split; [reflexivity|split; [reflexivity|intros l f; symmetry; apply in_rev]]].
    intros [|c s] H1 H2; [easy|]. cbn [real_libs with_searches lb_int]. unfold PropLineNumbers.ascii_int. change (lb_dg real_libs) with ascii_digit in H2. now rewrite H2.
  - intros f H. assert (E : forallb (fun f => mem f (map fst article)) (o_fields ship_opts) = true) by (vm_compute; reflexivity). rewrite forallb_forall in E. now apply mem_spec, E.
  - vm_compute. reflexivity.
Qed.
Print Assumptions C99_mapping.
Print Assumptions C99_paths.
Print Assumptions C99_segments.
Print Assumptions C99_segments_refuted.
Print Assumptions C99_readable.
Print Assumptions C99_saves.
