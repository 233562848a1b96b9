(** Model of the configuration of the commands auto_annotate_header.py (H below),
    _segmentation.py (S), _fulltext.py (F), _figure.py (G), _table.py (T), _reference.py
    (R), _reference_segmenter.py (Q), _affiliation_address.py (A): their containers, tag
    mappings, options and annotators; of auto_annotate_utils.py (U) L472-515, L532-556,
    L559-613, L648-660; and of utils/tei_xml.py.
    Simplified: the annotators take the target annotations (made from the target XML and
    the XML mapping, see ModelJats, ModelTarget) as given; sets are lists. *)
From Coq Require Import QArith.
From Verif Require Import Base ModelTags ModelTokenize ModelXml ModelTei ModelTeiDoc ModelMapping ModelTarget ModelFuzzyMatch ModelWordMatch ModelFuzzySearch
  ModelPostAnnot ModelLineNumbers ModelExpand ModelSegmentation ModelReference ModelSimpleMatch ModelMatch ModelAnnotators.
Open Scope nat_scope.

Inductive command :=
| CHeader | CSegmentation | CFulltext | CFigure | CTable | CReference | CReferenceSegmenter | CAffiliation.

(* ------------------------------------------------------------------ *)
(** ** Namespaces *)
(** tei_xml.py L15-19 *)
Definition TEI_NS : str := u "http://www.tei-c.org/ns/1.0".
Definition TEI_NS_MAP : list (str * str) := [(u "tei", TEI_NS)].

Section Namespaces.
Variable wd : N -> bool. (* \w *)
(** [re.sub(r'\b' + re.escape(prefix) + ':', '{' + url + '}', s)]; [pat] is the prefix with
    the colon, [prev] whether the character before is a word character, [skip] the
    characters left of a match.  (A backslash in the url would be an escape.) *)
Fixpoint resolve_go (pat repl : str) (skip : nat) (prev : bool) (s : str) : str :=
  match s with
  | [] => []
  | c :: s' =>
      match skip with
      | S k => resolve_go pat repl k (wd c) s'
      | O => if starts_with pat s && xorb prev (wd c)
             then repl ++ resolve_go pat repl (length pat - 1) (wd c) s'
             else c :: resolve_go pat repl 0 (wd c) s'
      end
  end.
(** U L532-544 *)
Definition resolve_namespace (namespaces : list (str * str)) (expr : str) : str :=
  fold_left (fun e n => resolve_go (fst n ++ u ":") (u "{" ++ snd n ++ u "}") 0 false e) namespaces expr.
(** U L547-553 *)
Definition resolve_mapping (namespaces : list (str * str)) (m : list (str * str)) : list (str * str) :=
  map (fun kv => (fst kv, resolve_namespace namespaces (snd kv))) m.
End Namespaces.

(* ------------------------------------------------------------------ *)
(** ** Tag mappings *)
(** H L32-39 *)
Definition header_mapping : list (str * str) :=
  [([], u "note[@type=""other""]");
   (u "title", u "docTitle/titlePart");
   (u "abstract", u "div[@type=""abstract""]");
   (u "author", u "byline/docAuthor");
   (u "author_aff", u "byline/affiliation");
   (u "line_no", u "note[@type=""line_no""]")].
(** S L48-57 *)
Definition segmentation_mapping : list (str * str) :=
  [([], u "body");
   (u "body", u "body");
   (u "headnote", u "note[@place=""headnote""]");
   (u "acknowledgment", u "div[@type=""acknowledgment""]");
   (u "annex", u "div[@type=""annex""]");
   (u "page", u "page");
   (u "line_no", u "note[@type=""line_no""]");
   (u "reference", u "listBibl")].
(** F L59-66 *)
Definition xref_mapping : list (str * str) :=
  [(u "xref-bib", u "ref[@type=""biblio""]");
   (u "xref-figure", u "ref[@type=""figure""]");
   (u "xref-table", u "ref[@type=""table""]");
   (u "xref-formula", u "ref[@type=""formula""]");
   (u "xref-section", u "ref[@type=""section""]");
   (u "xref-box", u "ref[@type=""box""]")].
Definition with_xrefs (key path : string) : list (str * str) :=
  map (fun kv => (u key ++ u "-" ++ fst kv, u path ++ u "/" ++ snd kv)) xref_mapping.
(** F L69-97 *)
Definition fulltext_mapping : list (str * str) :=
  [([], u "other");
   (u "note_other", u "note[@type=""other""]");
   (u "keywords", u "other[@type=""keywords""]");
   (u "section_title", u "head");
   (u "section_paragraph", u "p")]
  ++ with_xrefs "section_paragraph" "p" ++
  [(u "figure", u "figure");
   (u "table", u "figure[@type=""table""]");
   (u "reference_list_title", u "other[@type=""ref-list-title""]");
   (u "appendix_group_title", u "head[@type=""appendix-group""]");
   (u "appendix", u "figure[@xtype=""appendix""]");
   (u "boxed_text_title", u "head[@type=""box""]");
   (u "boxed_text_paragraph", u "p[@type=""box""]")]
  ++ with_xrefs "boxed_text_paragraph" "p[@type=""box""]" ++
  [(u "list", u "list");
   (u "list_item", u "list/item")]
  ++ with_xrefs "list_item" "list/item".
(** G L52-57 *)
Definition figure_mapping : list (str * str) :=
  [([], u "note[@type=""other""]");
   (u "figure", u "figure");
   (u "figure-label", u "figure/head/label");
   (u "figure-caption", u "figure/figDesc")].
(** T L47-52 *)
Definition table_mapping : list (str * str) :=
  [([], u "note[@type=""other""]");
   (u "table", u "figure[@type=""table""]");
   (u "table-label", u "figure[@type=""table""]/head/label");
   (u "table-caption", u "figure[@type=""table""]/figDesc")].
(** R L51-73 *)
Definition reference_mapping : list (str * str) :=
  [([], u "tei:note[@type=""other""]");
   (u "reference", u "tei:bibl");
   (u "reference-label", u "tei:bibl/tei:label");
   (u "reference-author", u "tei:bibl/tei:author");
   (u "reference-editor", u "tei:bibl/tei:editor");
   (u "reference-year", u "tei:bibl/tei:date");
   (u "reference-article-title", u "tei:bibl/tei:title[@level=""a""]");
   (u "reference-source", u "tei:bibl/tei:title[@level=""j""]");
   (u "reference-publisher-name", u "tei:bibl/tei:publisher");
   (u "reference-publisher-loc", u "tei:bibl/tei:pubPlace");
   (u "reference-volume", u "tei:bibl/tei:biblScope[@unit=""volume""]");
   (u "reference-issue", u "tei:bibl/tei:biblScope[@unit=""issue""]");
   (u "reference-page", u "tei:bibl/tei:biblScope[@unit=""page""]");
   (u "reference-issn", u "tei:bibl/tei:idno[@type=""ISSN""]");
   (u "reference-isbn", u "tei:bibl/tei:idno[@type=""ISBN""]");
   (u "reference-doi", u "tei:bibl/tei:idno[@type=""DOI""]");
   (u "reference-pii", u "tei:bibl/tei:idno[@type=""PII""]");
   (u "reference-pmid", u "tei:bibl/tei:idno[@type=""PMID""]");
   (u "reference-pmcid", u "tei:bibl/tei:idno[@type=""PMC""]");
   (u "reference-arxiv", u "tei:bibl/tei:idno[@type=""arxiv""]");
   (u "ext-link", u "tei:bibl/tei:ptr[@type=""web""]")].
(** Q L30-34 *)
Definition reference_segmenter_mapping : list (str * str) :=
  [([], u "note[@type=""other""]");
   (u "reference", u "listBibl/bibl");
   (u "reference-label", u "listBibl/bibl/label")].
(** A L56-67 *)
Definition affiliation_mapping : list (str * str) :=
  [([], u "tei:note[@type=""other""]");
   (u "author_aff", u "tei:affiliation");
   (u "author_aff-label", u "tei:affiliation/tei:marker");
   (u "author_aff-department", u "tei:affiliation/tei:orgName[@type=""department""]");
   (u "author_aff-institution", u "tei:affiliation/tei:orgName[@type=""institution""]");
   (u "author_aff-address", u "tei:affiliation/tei:address");
   (u "author_aff-address-city", u "tei:affiliation/tei:address/tei:settlement");
   (u "author_aff-address-postcode", u "tei:affiliation/tei:address/tei:postCode");
   (u "author_aff-address-state", u "tei:affiliation/tei:address/tei:region");
   (u "author_aff-address-country", u "tei:affiliation/tei:address/tei:country")].

Definition base_mapping (c : command) : list (str * str) :=
  match c with
  | CHeader => header_mapping | CSegmentation => segmentation_mapping | CFulltext => fulltext_mapping
  | CFigure => figure_mapping | CTable => table_mapping | CReference => reference_mapping
  | CReferenceSegmenter => reference_segmenter_mapping | CAffiliation => affiliation_mapping
  end.
(** G L118, T L97, R L185, A L137; not given by the others *)
Definition namespaces (c : command) : list (str * str) :=
  match c with CFigure | CTable | CReference | CAffiliation => TEI_NS_MAP | _ => [] end.
(** U L571-574 *)
Definition resolved_mapping (wd : N -> bool) (c : command) : list (str * str) :=
  resolve_mapping wd (namespaces c) (base_mapping c).
(** H L69-72 and the same in F, G, T, R, Q, A: a note for the other fields *)
Definition note_path (field : str) : str := u "note[@type=""" ++ field ++ u """]".
Definition extend_mapping (fields : list str) (m : list (str * str)) : list (str * str) :=
  fold_left (fun m f => match dict_get f m with Some _ => m | None => dict_set f (note_path f) m end) fields m.
Definition command_mapping (wd : N -> bool) (c : command) (fields : list str) : list (str * str) :=
  match c with
  | CSegmentation => resolved_mapping wd c
  | _ => extend_mapping fields (resolved_mapping wd c)
  end.

(** H L29 (grobid_training_tei.py L61-63), S L45, F L56, G L49, T L44, R L48, Q L27, A L51-53;
    the names of [findall] with their namespaces *)
Definition tei (n : string) : str := u "{" ++ TEI_NS ++ u "}" ++ u n.
Definition container (c : command) : list str :=
  match c with
  | CHeader => [u "text"; u "front"]
  | CReference => [tei "text"; tei "back"; tei "listBibl"]
  | CAffiliation => map tei ["teiHeader"; "fileDesc"; "sourceDesc"; "biblStruct"; "analytic"; "author"]%string
  | _ => [u "text"]
  end.

(* ------------------------------------------------------------------ *)
(** ** Options and annotators *)
(** The options of all commands; not every command has all of them (they are then ignored). *)
Record cmd_options := mkOpts {
  o_fields : list str;           (* --fields *)
  o_sub_fields : list str;       (* --sub-fields *)
  o_overrides : options;         (* --xml-mapping-overrides *)
  o_no_preserve_tags : bool;
  o_always : list str;           (* --always-preserve-fields *)
  o_no_preserve_fields : list str; (* segmentation *)
  o_preserve_sub : bool;
  o_no_preserve_sub : list str;
  o_simple : bool;               (* --matcher simple *)
  o_lookahead : nat;
  o_line_numbers : bool;
  o_line_cli : cli;
  o_segment : bool;              (* --segment-... *)
  o_remove : bool;               (* --remove-invalid-... *)
  o_no_extend : bool;
  o_previous : bool;
  o_following : bool;
  o_idno_prefix : bool;
  o_no_merge_references : bool }.

(** what is read from files: the target annotations (for the two matchers), the tag
    configuration, the segmentation configuration; filters of the complex matcher;
    [in_fuel] bounds the loops *)
Record inputs := mkInputs {
  in_targets : list tann;
  in_complex : list mann;
  in_tags : list (str * tag_config);
  in_segmentation : seg_config;
  in_below : Z -> Z -> bool;
  in_seq_filter : fm_filter; in_choice_filter : fm_filter; in_max_gap : Z;
  in_fuel : nat }.

(** H L63-67, F L201-206, G L123-128 ...: the XML mapping and [self.fields].  Header, segmentation, reference
    and reference segmenter have no sub fields. *)
Definition command_fields (c : command) (xm : mapping) (o : cmd_options) : mapping * list str :=
  filtered_mapping_and_fields (mapping_with_overrides xm (o_overrides o)) (o_fields o)
    (match c with CFulltext | CFigure | CTable | CAffiliation => o_sub_fields o | _ => [] end).

(** U L460-470: [get_simple_annotator_config]; U L586-597, F L211 and the same in G, T, R,
    Q, A: [use_sub_annotations] *)
Definition uses_sub (c : command) : bool := match c with CHeader | CSegmentation => false | _ => true end.
Definition simple_config (c : command) (o : cmd_options) (i : inputs) (preserve_sub extend : bool) : ModelSimpleMatch.config :=
  ModelSimpleMatch.mkConfig (o_lookahead o) 2 5 true extend (uses_sub c) preserve_sub (in_tags i).
Definition opt_list {A} (b : bool) (x : A) : list A := if b then [x] else [].
(** U L488-514: [get_default_annotators] with a target XML *)
Definition default_annotators (c : command) (o : cmd_options) (i : inputs) : list annotator :=
  opt_list (o_line_numbers o) (ALineNumbers (cli_config (in_below i) (o_line_cli o)))
  ++ [if o_simple o then ASimple (simple_config c o i false true) (in_fuel i) (in_targets i)
      else AMatching (in_seq_filter i) (in_choice_filter i) (in_max_gap i) true (in_fuel i) (in_complex i)].
(** G L63-89, T L58-84, R L134-170, A L85-124 *)
Definition sub_tag_annotators (c : command) (o : cmd_options) (i : inputs) (preserve_sub : bool) : annotator :=
  let cfg := simple_config c o i preserve_sub false in
  if o_segment o then ASimple cfg (in_fuel i) (in_targets i) else ASubTagOnly cfg (in_fuel i) (in_targets i).
(** F L119-127, L132-135 *)
Definition replaced_tags : list (str * ostr) := [(u "note_other", None); (u "note[@type=""other""]", None)].
Definition list_group (t : str) : ostr := dict_get t [(u "list_item", u "list")].
Definition expand_tags : list str := [u "figure"; u "table"].
(** A L73-82: ['address' in sub_tag] *)
Fixpoint contains (x s : str) : bool :=
  starts_with x s || match s with [] => false | _ :: s' => contains x s' end.
Definition address_group (t : str) : ostr := if contains (u "address") t then Some (u "author_aff-address") else None.
(** R L77-131, L196-199; the prefix regular expressions are those of [libs] *)
Definition idno_sub_tags : list str :=
  [u "reference-issn"; u "reference-isbn"; u "reference-doi"; u "reference-pii"; u "reference-pmid"; u "reference-pmcid"; u "reference-arxiv"].
Definition reference_config (o : cmd_options) : ref_config :=
  mkRefConfig [(u "reference-fpage", u "reference-page"); (u "reference-lpage", u "reference-page")]
    [u "reference-author"; u "reference-editor"; u "reference-issue"; u "reference-page"]
    (Some (if o_idno_prefix o then idno_sub_tags else []))
    [u "reference-author"; u "reference-editor"]
    (u "reference-etal") [u "reference-author"; u "reference-editor"].
(** S L182-186 *)
Definition with_no_merge (o : cmd_options) (c : seg_config) : seg_config :=
  mkSegConfig (sc_mapping c) (sc_front_max c) (sc_header_max c) (o_no_merge_references o || sc_no_merge_references c).
(** [_get_annotator] of the commands: H L46-49, S L93-104, F L138-187, Q L44-47 and as above *)
Definition command_annotators (c : command) (o : cmd_options) (i : inputs) : list annotator :=
  match c with
  | CHeader | CReferenceSegmenter => default_annotators c o i
  | CSegmentation => default_annotators c o i ++ [ASegmentation (with_no_merge o (in_segmentation i)) (negb (o_no_preserve_tags o))]
  | CFulltext =>
      [ASimple (simple_config c o i true (negb (o_no_extend o))) (in_fuel i) (in_targets i);
       AReplaceTags replaced_tags;
       AMergeGroup list_group LMain]
      ++ opt_list (o_previous o) (AExpandPrevious expand_tags)
      ++ opt_list (o_following o) (AExpandFollowing expand_tags)
  | CFigure | CTable => [sub_tag_annotators c o i true]
  | CReference =>
      [sub_tag_annotators c o i false; AReferences (reference_config o)] ++ opt_list (o_remove o) ARemoveUntagged
  | CAffiliation =>
      [sub_tag_annotators c o i true] ++ opt_list (o_remove o) ARemoveUntagged ++ [AMergeGroup address_group LSub]
  end.
(** G L120-122, T L99-101, R L187-189, A L139-141 *)
Definition segmented_field (c : command) : ostr :=
  match c with
  | CFigure => Some (u "figure") | CTable => Some (u "table")
  | CReference => Some (u "reference") | CAffiliation => Some (u "author_aff")
  | _ => None
  end.
Definition always_fields (c : command) (o : cmd_options) : list str :=
  match segmented_field c with
  | Some f => if o_segment o then o_always o else [f]
  | None => o_always o
  end.
(** the [super().__init__] calls of the commands, U L559-613, L648-660 *)
Definition command_options (c : command) (o : cmd_options) : ann_options :=
  mkAnnOptions (always_fields c o) (negb (o_no_preserve_tags o))
    (match c with CSegmentation => o_no_preserve_fields o | _ => o_fields o end)
    (match c with CFigure | CTable | CAffiliation => o_preserve_sub o | _ => false end)
    (match c with CFigure | CTable | CAffiliation => o_no_preserve_sub o | _ => [] end).

(** U L648-683 up to the checks: the document of a source and the tree that is saved.
    Documents are loaded with their tags as preserved tags (grobid_training_tei.py
    L553-575). *)
Definition command_document (c : command) (b : libs) (up lo : N -> bool) (xm : mapping) (o : cmd_options) (i : inputs) (root : xml) : res doc :=
  annotated_document b up lo (command_mapping (lb_wd b) c (snd (command_fields c xm o))) true (container c)
    (command_options c o) (command_annotators c o i) root.
Definition command_tree (c : command) (b : libs) (up lo : N -> bool) node_ok (xm : mapping) (o : cmd_options) (i : inputs) (root : xml) : res xml :=
  annotated_tree b up lo node_ok (command_mapping (lb_wd b) c (snd (command_fields c xm o))) true (container c)
    (command_options c o) (command_annotators c o i) root.

(** The searches of the matchers (ModelFuzzySearch, ModelWordMatch) with the sequence
    matchers [lsm] and [words], the threshold and [exact_word_match_threshold] (5):
    simple_matching_annotator.py L396-412, L541-545; fuzzy_match.py L283-289 (always 5).
    The generator of all matches is made a list (it does not fail: theorem C87_searches). *)
Definition with_searches (lsm : str -> str -> list block) (words : list str -> list str -> list block) (th : Q) (b : libs) : libs :=
  let alpha := lb_alpha b in
  mkLibs (lb_sp b) (lb_wd b) alpha (lb_dg b) (lb_lower b) (lb_escape b) (lb_int b) (lb_re_search b)
    (fun h n mc => fuzzy_search_index_range_chunks lsm words alpha (S (length h)) h n th 5 mc 0 None)
    (fun h n => match iter_fuzzy_search_all lsm words alpha (S (length h)) h n th 5 1 0 None with
                | Ok l => map (fun m => Ok (a_index_range m)) l
                | Err e => [Err e]
                end)
    (fun x y => if (Z.min (slen x) (slen y) <? 5)%Z then word_blocks words default_separators x y else Ok (lsm x y))
    (lb_ref_search b) (lb_ref_regexes b).
