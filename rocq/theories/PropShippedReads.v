(** C118: the mapping of the repository can be read for every document: its expressions, its JSON
    and its regular expressions; so the commands save what they can load. *)
From Coq Require Import QArith.
From Verif Require Import Base ModelTags ProofTags ModelTokenize ModelXml ModelTei ModelTeiDoc SpecTeiRead SpecTeiWrite SpecTeiDoc ProofTeiDoc PropTeiDoc PropTeiRead PropTokenize
  ModelMapping PropMapping ModelTarget ModelFuzzyMatch PropFuzzyMatch ModelWordMatch PropWordMatch ModelFuzzySearch PropFuzzySearch ModelClusters PropClusters ModelJoined ModelPostAnnot PropPostAnnot
  ModelLineNumbers PropLineNumbers ModelExpand ModelSegmentation ModelReference PropReference PropReferenceDoc
  ModelSimpleMatch PropSimpleMatch ModelMatch PropMatch PropMatchRun ModelAnnotators PropAnnotators PropNames ModelCommands PropCommands PropSaves PropCommandRuns
  ModelTagConfigs PropTagConfigs PropTarget ModelTargets PropTargets ModelRuns PropTotal PropRuns ModelChecks PropChecks ModelSegChecks PropSegChecks
  ModelFixXml ModelPipeline PropPipeline ModelSource ModelFiles PropFiles ModelArgs PropArgs ModelIni RepoConfig PropIni ModelJatsText PropShipped ModelMain PropMain
  ModelXPath PropShippedPaths ModelPrefixes PropPrefixes ModelJson PropJson.
Open Scope list_scope.
Open Scope nat_scope.

(* ------------------------------------------------------------------ *)
(** ** What the JSON of the mapping says *)
Definition at_xpath (x : string) : source := mkSource (Some (u x)) None.
Definition fixed_text (x : string) : source := mkSource None (Some (u x)).
(** the texts that are put together for a field *)
Definition joined_sources : list (string * list source) :=
  [("keywords", [at_xpath "kwd[@kwd-group-type='author-keywords' or not(@kwd-group-type)]"]);
   ("section_title", [at_xpath "./label"; fixed_text " "; at_xpath "./title"]);
   ("reference", [at_xpath ".//fpage"; fixed_text "-"; at_xpath ".//lpage"])]%string
  ++ map (fun f => (f, [at_xpath "./label"; fixed_text " "; at_xpath "./caption"]%string))
       ["boxed_text_title"; "figure"; "body_figure"; "back_figure"; "table"; "body_table"; "back_table"]%string.
Definition page_range : range_item := mkRangeItem (at_xpath "fpage") (at_xpath "lpage") true.

Lemma suffix_check (suffix : string) (P : str * str -> bool) : forallb (fun kv => implb (ends_with (u suffix) (fst kv)) (P kv)) article = true ->
  forall k s, In (k ++ u suffix, s) article -> P (k ++ u suffix, s) = true.
Proof. intros E k s H. rewrite forallb_forall in E. specialize (E _ H). cbn [fst] in E. now rewrite ends_with_app in E. Qed.
Definition source_eqb (a b : source) : bool := ostreq (s_xpath a) (s_xpath b) && ostreq (s_value a) (s_value b).
Lemma source_eqb_eq a b : source_eqb a b = true -> a = b.
Proof. destruct a as [xa va], b as [xb vb]. unfold source_eqb. cbn [s_xpath s_value]. rewrite andb_true_iff. intros [H1 H2]. apply ostreq_true in H1, H2. now subst. Qed.
Fixpoint sources_eqb (a b : list source) : bool :=
  match a, b with [], [] => true | x :: a, y :: b => source_eqb x y && sources_eqb a b | _, _ => false end.
Lemma sources_eqb_eq a : forall b, sources_eqb a b = true -> a = b.
Proof. induction a as [|x a IH]; intros [|y b]; cbn; try easy. rewrite andb_true_iff. intros [H1 H2]. apply source_eqb_eq in H1. subst. f_equal. now apply IH. Qed.
(** the JSON of exactly these fields, each with exactly one list *)
Theorem C118_concat :
  (forall f l, In (f, l) joined_sources -> exists s, In (u f ++ u ".children.concat", s) article /\ read_concat s = Ok [l]) /\
  (forall k s, In (k ++ u ".children.concat", s) article -> exists f l, k = u f /\ In (f, l) joined_sources /\ read_concat s = Ok [l]).
Proof.
  split.
  - intros f l H.
    assert (E : forallb (fun fl => existsb (fun kv => streq (fst kv) (u (fst fl) ++ u ".children.concat") && match read_concat (snd kv) with Ok [l'] => sources_eqb l' (snd fl) | _ => false end) article) joined_sources = true) by (vm_compute; reflexivity).
    rewrite forallb_forall in E. specialize (E _ H). apply existsb_exists in E as ([k s] & Hin & E). cbn [fst snd] in E. apply andb_true_iff in E as [E1 E2]. apply streq_true in E1. subst k.
    exists s. split; [exact Hin|]. destruct (read_concat s) as [[|l' [|? ?]]|]; try discriminate. apply sources_eqb_eq in E2. now subst.
  - intros k s H.
    assert (E : forallb (fun kv => implb (ends_with (u ".children.concat") (fst kv)) (existsb (fun fl => streq (fst kv) (u (fst fl) ++ u ".children.concat") && match read_concat (snd kv) with Ok [l'] => sources_eqb l' (snd fl) | _ => false end) joined_sources)) article = true) by (vm_compute; reflexivity).
    pose proof (suffix_check ".children.concat" (fun kv => existsb (fun fl => streq (fst kv) (u (fst fl) ++ u ".children.concat") && match read_concat (snd kv) with Ok [l'] => sources_eqb l' (snd fl) | _ => false end) joined_sources) E k s H) as G.
    apply existsb_exists in G as ([f l] & Hin & G). cbn [fst snd] in G. apply andb_true_iff in G as [G1 G2]. apply streq_true in G1. apply app_inv_tail in G1. exists f, l. split; [exact G1|]. split; [exact Hin|].
    destruct (read_concat s) as [[|l' [|? ?]]|]; try discriminate. apply sources_eqb_eq in G2. now subst.
Qed.
Theorem C118_range :
  (exists s, In (u "page_no.children.range", s) article /\ read_range s = Ok [page_range]) /\
  forall k s, In (k ++ u ".children.range", s) article -> k = u "page_no" /\ read_range s = Ok [page_range].
Proof.
  assert (P : forall (kv : str * str), (streq (fst kv) (u "page_no.children.range") && match read_range (snd kv) with Ok [r] => source_eqb (ri_min r) (at_xpath "fpage") && source_eqb (ri_max r) (at_xpath "lpage") && ri_standalone r | _ => false end) = true ->
    fst kv = u "page_no.children.range" /\ read_range (snd kv) = Ok [page_range]).
  { intros [k s] E. cbn [fst snd] in *. apply andb_true_iff in E as [E1 E2]. apply streq_true in E1. split; [exact E1|]. destruct (read_range s) as [[|[a b st] [|? ?]]|]; try discriminate.
    cbn [ri_min ri_max ri_standalone] in E2. apply andb_true_iff in E2 as [E2 ->]. apply andb_true_iff in E2 as [E2 E3]. apply source_eqb_eq in E2, E3. now subst. }
  split.
  - assert (E : existsb (fun kv => streq (fst kv) (u "page_no.children.range") && match read_range (snd kv) with Ok [r] => source_eqb (ri_min r) (at_xpath "fpage") && source_eqb (ri_max r) (at_xpath "lpage") && ri_standalone r | _ => false end) article = true) by (vm_compute; reflexivity).
    apply existsb_exists in E as ([k s] & Hin & E). apply P in E as [E1 E2]. cbn [fst snd] in *. subst. now exists s.
  - intros k s H.
    assert (E : forallb (fun kv => implb (ends_with (u ".children.range") (fst kv)) (streq (fst kv) (u "page_no.children.range") && match read_range (snd kv) with Ok [r] => source_eqb (ri_min r) (at_xpath "fpage") && source_eqb (ri_max r) (at_xpath "lpage") && ri_standalone r | _ => false end)) article = true) by (vm_compute; reflexivity).
    rewrite forallb_forall in E. specialize (E _ H). cbn [fst] in E. rewrite ends_with_app in E. apply (P (k ++ u ".children.range", s)) in E as [E1 E2]. cbn [fst snd] in *. split; [|exact E2].
    change (u "page_no.children.range") with (u "page_no" ++ u ".children.range") in E1. now apply app_inv_tail in E1.
Qed.

(* ------------------------------------------------------------------ *)
(** ** All of it can be read *)
Definition parses (x : str) : bool := match parse_xpath x with Some _ => true | None => false end.
Lemma parses_at root e x : parses x = true -> exists l, xpath_at root e x = Ok l.
Proof. unfold parses, xpath_at. destruct (parse_xpath x) as [ex|]; [|discriminate]. intros _. eexists. reflexivity. Qed.
(** the functions of Python for single characters and numbers are as usual for ASCII *)
Definition usual_texts (b : libs) (rd : readers) : Prop :=
  usual_space (lb_sp b) /\ usual_lower (lb_lower b) /\ (forall c, (c < 128)%N -> rd_lb rd c = line_end c) /\
  lb_int b (u "1") = Some 1%Z /\ lb_int b (u "2") = Some 2%Z.
Lemma shipped_parses sp k x : usual_space sp -> PropMapping.plain_name k -> expression sp read_concat read_range article k x -> parses x = true.
Proof.
  intros Hsp Pk H.
  assert (E : forallb (fun kv => implb (negb (has ch_dot (fst kv)) || ends_with (u ".ignore") (fst kv) || ends_with (u ".children") (fst kv))
     (forallb parses (parse_xpaths ascii_space (Some (snd kv))))) article = true) by (vm_compute; reflexivity).
  rewrite forallb_forall in E.
  assert (G : forall key, (forall v, In (key, v) article -> (negb (has ch_dot key) || ends_with (u ".ignore") key || ends_with (u ".children") key) = true) ->
    In x (parse_xpaths sp (dict_get key article)) -> parses x = true).
  { intros key Hk Hx. rewrite xpaths_usual in Hx by (try exact Hsp; apply article_ascii). destruct (dict_get key article) as [v|] eqn:D; [|destruct Hx].
    apply dict_get_In in D. pose proof (E _ D) as F. cbn [fst snd] in F. rewrite (Hk v D) in F. cbn [implb] in F. rewrite forallb_forall in F. now apply F. }
  destruct H as [H|[H|[H|[H|[H|H]]]]].
  - apply (G k); [|exact H]. intros v _. now rewrite (proj2 (has_false _ _) Pk).
  - apply (G (k ++ u ".ignore")); [|exact H]. intros v _. rewrite ends_with_app. now rewrite orb_true_r.
  - apply (G (k ++ u ".children")); [|exact H]. intros v _. rewrite ends_with_app. now rewrite orb_true_r.
  - destruct H as (n & Pn & H).
    assert (F : forallb (fun kv => implb (starts_with (u ".sub.") (skipn (length (field_name (fst kv))) (fst kv))) (parses (snd kv))) article = true) by (vm_compute; reflexivity).
    rewrite forallb_forall in F. specialize (F _ H). cbn [fst snd] in F.
    assert (Q : field_name (k ++ u ".sub." ++ n) = k) by (apply (field_name_spec _ k Pk); right; now exists (u "sub." ++ n)). rewrite Q in F.
    rewrite skipn_app, skipn_all, Nat.sub_diag in F. exact F.
  - destruct H as (s & items & item & src & D & J & I1 & I2 & X). unfold option_of in D. apply dict_get_In in D.
    destruct (proj2 C118_concat _ _ D) as (f & l & _ & Hin & J'). rewrite J in J'. injection J' as ->. destruct I1 as [<-|[]].
    assert (F : forallb (fun fl => forallb (fun s => match s_xpath s with Some x => parses x | None => true end) (snd fl)) joined_sources = true) by (vm_compute; reflexivity).
    rewrite forallb_forall in F. specialize (F _ Hin). cbn [snd] in F. rewrite forallb_forall in F. specialize (F _ I2). now rewrite X in F.
  - destruct H as (s & items & item & D & J & I1 & X). unfold option_of in D. apply dict_get_In in D.
    destruct (proj2 C118_range _ _ D) as (_ & J'). rewrite J in J'. injection J' as ->. destruct I1 as [<-|[]].
    cbn [s_xpath page_range ri_min ri_max at_xpath] in X. destruct X as [[= <-]|[= <-]]; vm_compute; reflexivity.
Qed.
Theorem C118_reads : forall b rd excluding root, usual_texts b rd -> reads_shipped b (with_texts rd) (article_doc excluding root).
Proof.
  intros b rd excl root (U1 & U2 & U3 & U4 & U5). split; [exact U1|]. split; [exact U2|]. split; [exact U3|]. split; [exact U4|]. split; [exact U5|]. split; [|split; [|split]].
  - intros k s H. destruct (proj2 C118_concat _ _ H) as (f & l & _ & _ & J). now exists [l].
  - intros k s H. destruct (proj2 C118_range _ _ H) as (_ & J). now exists [page_range].
  - exact (proj1 C106_compiles).
  - intros k e x Pk H. apply parses_at. exact (shipped_parses _ k x U1 Pk H).
Qed.
(** C118: with the configuration of the repository a command saves every source that it can load,
    whatever article its target is. *)
Theorem C118_saves : forall b rd c up lo node_ok o i excluding a t cs tl root,
  usual_texts b rd -> searches b -> usual_readers b rd -> ascii_right (lb_wd b) -> accepts_usual node_ok ->
  proper_options b c o i -> o_overrides o = [] ->
  (forall f, In f (o_fields o) -> In f (map fst article) \/ plain_field f) ->
  parse_segmentation_config (lb_sp b) (lb_lower b) (lb_int b) (comma_list (lb_sp b)) (rd_order rd) segmentation_conf = Ok (in_segmentation i) ->
  forallb loadable (find_all (container c) root) = true -> find_all (container c) root <> [] ->
  (forall e x, In e (find_all (container c) root) -> below e x -> plain_elem node_ok x) ->
  exists xm r n, parse_xml_mapping (lb_sp b) (lb_lower b) xml_mapping_conf = Ok xm /\
    forall m, n <= m -> run_tree b (with_texts rd) c up lo node_ok xm o (with_fuel m i) (article_doc excluding (Elem (u "article") a t cs tl)) root = Ok r.
Proof.
  intros b rd c up lo node_ok o i excl a t cs tl root Hr Hb Hu Hw Ha Hp Ho Hf Hseg Hl Hc He.
  exact (C99_saves b (with_texts rd) c up lo node_ok o i (article_doc excl (Elem (u "article") a t cs tl)) root (C118_reads b rd excl _ Hr) Hb Hu Hw Ha Hp Ho eq_refl Hf Hseg Hl Hc He).
Qed.
(** ... as a program: sources that can be loaded, with articles as targets, are as C100_shipped asks *)
Definition article_source (m : main_libs) (c : command) (parse_target : str -> res xml) (ro : run_options) (f : files) (src : str) : Prop :=
  exists content final path tcontent a t cs tl root,
    f src = Some content /\ prepared (ml_formats m) c content final /\ fm_source (ml_formats m) final = Ok root /\
    target_file (ml_formats m) ro src path /\ f path = Some tcontent /\ parse_target tcontent = Ok (Elem (u "article") a t cs tl) /\
    forallb loadable (find_all (container c) root) = true /\ find_all (container c) root <> [] /\
    (forall e x, In e (find_all (container c) root) -> below e x -> plain_elem (ml_node_ok m) x).
Theorem C118_program : forall m c rd excluding parse_target ro f src,
  ml_readers m = with_texts rd -> (forall s, fm_target (ml_formats m) s = do x <- parse_target s ;; Ok (article_doc excluding x)) ->
  usual_texts (ml_libs m) rd -> article_source m c parse_target ro f src -> fine_source m c ro f src.
Proof.
  intros m c rd excl parse_target ro f src Hrd Hft U (content & final & path & tcontent & a & t & cs & tl & root & F1 & F2 & F3 & F4 & F5 & F6 & F7 & F8 & F9).
  exists content, final, path, tcontent, (article_doc excl (Elem (u "article") a t cs tl)), root. do 5 (split; [assumption|]).
  split; [rewrite Hft, F6; reflexivity|]. split; [reflexivity|]. split; [rewrite Hrd; now apply C118_reads|]. now repeat split.
Qed.

(* ------------------------------------------------------------------ *)
(** ** Examples *)
Definition fig_article : xml :=
  el "article" [el "front" []; el "body" [el "sec" [Elem (u "title") [] (u "Shores") [] []; el "fig" [Elem (u "label") [] (u "Fig 1") [] []; el "caption" [Elem (u "p") [] (u "stones") [] []]]]]].
Definition fig_doc : target_doc := article_doc (fun _ _ _ => []) fig_article.
Example C118_ex_figure : exists xm, parse_xml_mapping ascii_space lower_ascii xml_mapping_conf = Ok xm /\
  run_tree real_libs (with_texts ship_readers) CFigure ascii_upper ascii_lower PropSaves.usual xm ship_opts (with_fuel 20 ship_inputs) fig_doc fig_source =
    Ok (Elem (u "tei") [] [] [Elem (u "text") [] []
          [Elem (u "figure") [] [] [Elem (u "head") [] [] [Elem (u "label") [] (u "Fig 1") [] []] (u " "); Elem (u "figDesc") [] (u "stones") [] []] (u " ");
           Elem (u "note") [(u "type", u "other")] (u "page") [] []] []] []).
Proof. exists [(u "article", article)]. split; [apply shipped_mapping; intros x _; reflexivity|vm_compute; reflexivity]. Qed.
Example C118_ex_texts : usual_texts real_libs ship_readers /\ usual_readers real_libs ship_readers /\ searches real_libs.
Proof.
  split; [|split].
  - repeat split; try (intros x _; reflexivity).
  - exact (proj1 (proj2 C99_ex_reads)).
  - apply C87_searches; [exact prefix_lsm_ok|exact C30_ex_ok|reflexivity].
Qed.
Example C118_ex_json : read_range (u "[{ ""max"": {""value"": ""7\n""}, ""min"":{""xpath"" :""a"", ""xpath"":null}, ""other"": -1.50e+3 }]") = Ok [mkRangeItem (mkSource None None) (mkSource None (Some [55; 10]%N)) false]
  /\ read_concat (u "[[{""xpath"": ""a""}],]") = Err RuntimeError /\ read_concat (u "[[{""xpath"": 01}]]") = Err RuntimeError /\ read_concat (u "[[{""xpath"": 1}]]") = Err RuntimeError.
Proof. vm_compute. auto. Qed.
Definition fig_target_text (s : str) : res xml := if streq s (u "T") then Ok fig_article else Err ValueError.
Definition article_formats : formats :=
  mkFormats (fm_source main_formats) (fun s => do x <- fig_target_text s ;; Ok (article_doc (fun _ _ _ => []) x)) (fm_write main_formats) (fm_sub main_formats) (fm_decode main_formats) (fm_encode main_formats)
    (fm_refused main_formats) (fm_valid main_formats) (fm_events main_formats) (fm_similar main_formats) (fm_lsm main_formats) (fm_words main_formats) (fm_union main_formats).
Definition article_libs : main_libs :=
  mkMainLibs main_args real_libs (with_texts ship_readers) article_formats ascii_upper ascii_lower PropSaves.usual half (@Ok str) (ml_find main_ex).
Example C118_ex_program : article_source article_libs CFigure fig_target_text (run_options_of main_args main_occ) main_files (u "in/a.figure.tei.xml")
  /\ fine_source article_libs CFigure (run_options_of main_args main_occ) main_files (u "in/a.figure.tei.xml").
Proof.
  assert (A : article_source article_libs CFigure fig_target_text (run_options_of main_args main_occ) main_files (u "in/a.figure.tei.xml")).
  { exists (u "F"), (u "F"), (u "xml/a.xml"), (u "T"). do 4 eexists. exists fig_source. split; [reflexivity|]. split; [reflexivity|]. split; [reflexivity|]. split; [eexists _, _; repeat split|].
    split; [reflexivity|]. split; [reflexivity|]. split; [reflexivity|]. split; [discriminate|].
    destruct C90_ex_saves as (_ & _ & _ & _ & _ & _ & _ & _ & _ & H & _). exact H. }
  split; [exact A|]. exact (C118_program article_libs CFigure ship_readers (fun _ _ _ => []) fig_target_text _ _ _ eq_refl (fun _ => eq_refl) (proj1 C118_ex_texts) A).
Qed.
Print Assumptions C118_concat.
Print Assumptions C118_range.
Print Assumptions C118_reads.
Print Assumptions C118_saves.
Print Assumptions C118_program.
