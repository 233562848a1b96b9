(** C121: the texts of titles, paragraphs and other fields that are used as a whole: which target
    annotations the mapping of the repository makes of any article. *)
From Coq Require Import Permutation Sorted.
From Verif Require Import Base ModelTags ModelXml ModelClusters PropClusters ModelMapping PropMapping ModelTarget ModelFuzzyMatch ModelJoined ModelWordMatch PropTarget ModelTargets PropTargets ModelAnnotators ModelCommands ModelRuns PropNames PropIni
  ModelJatsText ModelXPath PropXPath PropShipped PropShippedPaths ModelPrefixes ModelJson PropJson PropShippedReads PropSaves PropTotal PropCaptions.
Require Import Lia.
Import ListNotations.
Open Scope list_scope.
Open Scope nat_scope.

(* ---------------------------------------------------------------- *)
(** ** Specification *)
(** the texts in an element in document order, each with the element that has it *)
Fixpoint pieces (p : npath) (x : xml) : list (npath * str) :=
  match x with
  | Elem _ _ text cs _ =>
      (p, text) :: (fix go (i : nat) (l : list xml) : list (npath * str) :=
                      match l with [] => [] | c :: l' => pieces (p ++ [i]) c ++ (p, xtail c) :: go (S i) l' end) 0 cs
  | Misc _ => []
  end.
Definition at_or_below (q x : npath) : bool := peq x (firstn (length x) q).
Section Spec.
Variables sp wd : N -> bool.
Variable root : xml.
(** the texts that are not in one of the elements [ignored] *)
Definition texts_outside (ignored : list npath) (e : npath) : list str :=
  match xml_at root e with
  | Some x => filter (fun s => negb (streq s [])) (map snd (filter (fun t => negb (existsb (at_or_below (fst t)) ignored)) (pieces e x)))
  | None => []
  end.
(** elements below [e] that [c] describes (C115), in document order *)
Definition are_below (c : list label -> list label -> Prop) (e : npath) (l : list npath) : Prop :=
  StronglySorted comes_before l /\
  forall q, In q l <-> exists r b m, q = e ++ r /\ trail root e = Some b /\ trail root q = Some (b ++ m) /\ c b m.
(** the annotations for one of the [.sub.] options, with its name and expression *)
Definition sub_made (e : npath) (s : str * str) (a : list (str * tvalue)) : Prop :=
  exists x c found, snd s = u x /\ In (x, c) inner_paths /\ are_below c e found /\
    a = map (fun t => (fst s, VOne t)) (filter (fun t => negb (streq t [])) (map (text_at sp root) found)).
(** the annotations for one element: none if there is no text, else one (spaces between words: C59) *)
Definition text_made (k : str) (ignored : list label -> list label -> Prop) (subs : options) (e : npath) (ts : list tgt) : Prop :=
  exists out sub_lists, are_below ignored e out /\ Forall2 (sub_made e) subs sub_lists /\
    ts = match strip sp (raw_text wd (texts_outside out e)) with
         | [] => []
         | t => [mkTgt k (VOne t) false false false (concat sub_lists)]
         end.
End Spec.
Definition nothing (b m : list label) : Prop := False.
(** the fields, and what is left out of them: lists at any depth, but figures and tables only if they
    are children of the paragraph; tables only if they are children of the list item *)
Definition text_fields : list (string * (list label -> list label -> Prop)) :=
  map (fun f => (f, nothing))
    ["title"; "abstract"; "journal"; "issn"; "doi"; "copyright_statement"; "keywords_title"; "manuscript_type"; "author_notes"; "email";
     "body_section_title"; "back_section_title"; "body_section_paragraph"; "back_section_paragraph"; "acknowledgment_section_title"; "acknowledgment_section_paragraph";
     "appendix_group_title"; "appendix"; "reference_list_title"]%string
  ++ [("section_paragraph", rel_either (rel_below ["list"]) (rel_either (rel_path ["fig"]) (rel_path ["table-wrap"])));
      ("boxed_text_paragraph", rel_either (rel_below ["list"]) (rel_either (rel_path ["fig"]) (rel_path ["table-wrap"])));
      ("list_item", rel_either (rel_below ["fig"]) (rel_path ["table-wrap"]))]%string.

(* ---------------------------------------------------------------- *)
(** ** Texts *)
Section XmlInd.
Variable P : xml -> Prop.
Hypothesis HE : forall n a t cs tl, Forall P cs -> P (Elem n a t cs tl).
Hypothesis HM : forall tl, P (Misc tl).
Fixpoint xml_each (x : xml) : P x :=
  match x with
  | Elem n a t cs tl => HE n a t cs tl ((fix go l : Forall P l := match l with [] => Forall_nil _ | c :: l' => Forall_cons _ (xml_each c) (go l') end) cs)
  | Misc tl => HM tl
  end.
End XmlInd.
Notation full := (filter (fun s : str => negb (streq s []))).
Lemma full_one s : full [s] = some_text s.
Proof. now destruct s. Qed.
Lemma tail_erase c : ntail (erase c) = xtail c.
Proof. now destruct c. Qed.
Lemma itertext_pieces x : forall p, itertext (erase x) = full (map snd (pieces p x)).
Proof.
  induction x as [n a t cs tl IH|tl] using xml_each; intros p; [|reflexivity]. cbn [erase itertext pieces map snd].
  change (full (t :: ?l)) with (full ([t] ++ l)). rewrite filter_app, full_one. f_equal. generalize 0 as i. induction IH as [|c cs Hc _ IH]; intros i; [reflexivity|]. cbn [map flat_map]. rewrite map_app, filter_app. cbn [map snd].
  change (full (xtail c :: ?l)) with (full ([xtail c] ++ l)). rewrite (filter_app _ [xtail c]), full_one, tail_erase, <- (Hc (p ++ [i])), <- app_assoc. f_equal. f_equal. apply IH.
Qed.
Lemma pieces_below x : forall p t, In t (pieces p x) -> exists r, fst t = p ++ r.
Proof.
  induction x as [n a t cs tl IH|tl] using xml_each; intros p s H; [|destruct H]. cbn [pieces] in H. destruct H as [<-|H]; [exists []; now rewrite app_nil_r|].
  revert H. generalize 0 as i. induction IH as [|c cs Hc _ IH]; intros i H; [destruct H|]. apply in_app_iff in H as [H|[<-|H]].
  - destruct (Hc _ _ H) as (r & E). exists (i :: r). now rewrite E, <- app_assoc.
  - exists []. now rewrite app_nil_r.
  - exact (IH _ H).
Qed.
Lemma at_or_below_spec q x : at_or_below q x = true <-> exists r, q = x ++ r.
Proof.
  unfold at_or_below. rewrite peq_spec. split.
  - intros E. exists (skipn (length x) q). rewrite E at 1. symmetry. apply firstn_skipn.
  - intros (r & ->). rewrite firstn_app, firstn_all, Nat.sub_diag. cbn. now rewrite app_nil_r.
Qed.
Section Outside.
Variable ignored : list npath.
Variable e : npath.
Notation keeps := (fun t : npath * str => negb (existsb (at_or_below (fst t)) ignored)).
Lemma outside_texts x : forall rel, existsb (at_or_below (e ++ rel)) ignored = false ->
  text_and_exclude (fun rel => pmem (e ++ rel) ignored) rel (erase x) = full (map snd (filter keeps (pieces (e ++ rel) x))).
Proof.
  induction x as [n a t cs tl IH|tl] using xml_each; intros rel H; [|reflexivity]. cbn [erase text_and_exclude pieces filter fst]. rewrite H. cbn [negb map snd].
  change (full (t :: ?l)) with (full ([t] ++ l)). rewrite filter_app, full_one. f_equal. generalize 0 as i. induction IH as [|c cs Hc _ IH]; intros i; [reflexivity|]. cbn [map].
  rewrite filter_app. cbn [filter fst]. rewrite H. cbn [negb]. rewrite map_app, filter_app. cbn [map snd]. change (full (xtail c :: ?l)) with (full ([xtail c] ++ l)). rewrite (filter_app _ [xtail c]), full_one, tail_erase, <- IH. f_equal.
  rewrite <- app_assoc. destruct (pmem (e ++ rel ++ [i]) ignored) eqn:E.
  - rewrite (PropTargets.filter_none keeps); [reflexivity|]. intros s Hs. apply negb_false_iff, existsb_exists. unfold pmem in E. apply existsb_exists in E as (x & Hx & E). apply peq_spec in E. exists x. split; [exact Hx|]. apply at_or_below_spec.
    destruct (pieces_below _ _ _ Hs) as (r & ->). exists r. now rewrite <- E.
  - rewrite Hc; [reflexivity|]. rewrite app_assoc. destruct (existsb (at_or_below ((e ++ rel) ++ [i])) ignored) eqn:E'; [|reflexivity]. exfalso. apply existsb_exists in E' as (x & Hx & Hb). apply at_or_below_spec in Hb as (r & Hb).
    destruct r as [|j r _] using rev_ind.
    + rewrite app_nil_r in Hb. rewrite app_assoc in E. assert (pmem ((e ++ rel) ++ [i]) ignored = true); [|congruence]. apply existsb_exists. exists x. split; [exact Hx|]. now apply peq_spec.
    + rewrite app_assoc in Hb. apply app_inj_tail in Hb as [Hb _]. assert (existsb (at_or_below (e ++ rel)) ignored = true); [|congruence]. apply existsb_exists. exists x. split; [exact Hx|]. apply at_or_below_spec. now exists r.
Qed.
End Outside.
Lemma raw_outside wd root ignored e : (forall q, In q ignored -> exists r, r <> [] /\ q = e ++ r) -> raw_content wd (erase root) ignored e = raw_text wd (texts_outside root ignored e).
Proof.
  intros H. unfold raw_content, texts_outside. rewrite erase_at. destruct (xml_at root e) as [x|]; [|reflexivity]. cbn [option_map]. f_equal. unfold text_content_and_exclude.
  destruct ignored as [|q l] eqn:El; cbn [nonempty negb].
  - rewrite (itertext_pieces x e). f_equal. f_equal. symmetry. now apply PropTargets.filter_every.
  - rewrite <- El in *. rewrite outside_texts; [now rewrite app_nil_r|]. rewrite app_nil_r. destruct (existsb _ ignored) eqn:E; [|reflexivity]. exfalso. apply existsb_exists in E as (y & Hy & E). apply at_or_below_spec in E as (r & E).
    destruct (H y Hy) as (r' & Hr & ->). apply (f_equal (@length nat)) in E. rewrite !app_length in E. destruct r'; [easy|cbn in E; lia].
Qed.

(* ---------------------------------------------------------------- *)
(** ** Fields *)
Lemma text_options k c : In (k, c) text_fields ->
  (forall s, In s [".children"; ".regex"; ".extract-regex"; ".match-multiple"; ".bonding"; ".require-next"]%string -> option_of article (u k) s = None) /\
  ((c = nothing /\ option_of article (u k) ".ignore" = None) \/ exists x, parse_xpaths ascii_space (option_of article (u k) ".ignore") = [u x] /\ In (x, c) inner_paths /\ forall b, ~ c b []) /\
  plain_name (u k) /\ In (u k) (map fst article).
Proof.
  intros H. assert (E : forallb (fun r => let k := fst r in
     forallb (fun s => match option_of article (u k) s with None => true | _ => false end) [".children"; ".regex"; ".extract-regex"; ".match-multiple"; ".bonding"; ".require-next"]%string &&
     negb (has ch_dot (u k)) && mem (u k) (map fst article)) text_fields = true) by (vm_compute; reflexivity).
  rewrite forallb_forall in E. specialize (E _ H). cbv beta zeta in E. cbn [fst] in E. rewrite !andb_true_iff in E. destruct E as [[E1 E2] E3]. split; [|split; [|split]].
  - intros s Hs. rewrite forallb_forall in E1. specialize (E1 s Hs). now destruct (option_of article (u k) s).
  - unfold text_fields in H. apply in_app_iff in H as [H|H].
    + left. apply in_map_iff in H as (f & [= <- <-] & Hf). split; [reflexivity|]. assert (E : forallb (fun r => match option_of article (u (fst r)) ".ignore" with None => true | _ => false end) (firstn 19 text_fields) = true) by (vm_compute; reflexivity).
      rewrite forallb_forall in E. specialize (E (f, nothing)). cbn [fst] in E. destruct (option_of article (u f) ".ignore"); [|reflexivity]. discriminate E. change (firstn 19 text_fields) with (map (fun f => (f, nothing)) (map fst (firstn 19 text_fields))). apply (in_map (fun f => (f, nothing))). exact Hf.
    + right. assert (N : forall b n, ~ rel_path [n] b []) by (intros b n; discriminate). assert (B : forall b n, ~ rel_below [n] b []) by (intros b n (r & E); destruct r; discriminate).
      destruct H as [[= <- <-]|[[= <- <-]|[[= <- <-]|[]]]]; [exists ".//list|fig|table-wrap"%string|exists ".//list|fig|table-wrap"%string|exists ".//fig|table-wrap"%string]; (split; [vm_compute; reflexivity|]); (split; [unfold inner_paths; cbn [app In]; tauto|]); intros b H; unfold rel_either in H; clear E1; destruct H as [H|H]; try (destruct H as [H|H]); solve [exact (N _ _ H)|exact (B _ _ H)].
  - apply negb_true_iff in E2. now apply has_false.
  - now apply mem_In.
Qed.

Section Fields.
Variable b : libs.
Variable rd : readers.
Variable excl : xml -> list npath -> npath -> str.
Variable root : xml.
Hypothesis Hroot : exists a t cs tl, root = Elem (u "article") a t cs tl.
Hypothesis Husual : usual_texts b rd.
Let sp := lb_sp b.
Let wd := lb_wd b.
Notation conf_of_field := (field_conf sp (lb_lower b) (rd_compiles (with_texts rd)) (lb_int b) (rd_json_concat (with_texts rd)) (rd_json_range (with_texts rd))).
Notation made_of_element := (tgt_entries sp wd (lb_dg b) (rd_compiles (with_texts rd)) (lb_int b) (rd_show_int (with_texts rd)) (rd_group (with_texts rd)) (rd_spans (with_texts rd)) (xpath_at root) (excl root) (erase root)).
Lemma shipped_field m k c l : In (k, c) field_paths -> reduced_to m (u k) -> plain_name (u k) -> In (u k) (map fst article) ->
  targets_of b (with_texts rd) [(u "article", m)] (article_doc excl root) = Ok l ->
  exists f es ls, conf_of_field m (u k) = Ok f /\ StronglySorted comes_before es /\ (forall e, In e es <-> exists x, trail root e = Some x /\ c x) /\
    Forall2 (fun e x => made_of_element (u k) f e = Ok x) es ls /\ filter (fun t => streq (tg_name t) (u k)) l = concat (map (map snd) ls).
Proof.
  intros Hc Hm Pk Ik HT. destruct Husual as (Hsp & Hlow & _ & _ & _). fold sp in Hsp.
  assert (Hroot' : exists n a t cs tl, root = Elem n a t cs tl) by (destruct Hroot as (a & t & cs' & tl & E); now exists (u "article"), a, t, cs', tl).
  unfold targets_of in HT. destruct Hroot as (ra & rt & rcs & rtl & Er).
  assert (Etag : td_tag (article_doc excl root) = u "article") by (rewrite Er; reflexivity). rewrite Etag in HT.
  change (td_xpath (article_doc excl root)) with (xpath_at root) in HT. change (td_root (article_doc excl root)) with (erase root) in HT. change (td_excluding (article_doc excl root)) with (excl root) in HT.
  assert (Km : dict_get (u k) m = dict_get (u k) article) by (now apply kept_self).
  destruct (C115_fields sp root k c Hsp Hroot' Hc) as (found & Hfound & NDfound & Infound).
  assert (NDm : NoDup (map fst m)).
  { destruct Hm as (keep & -> & _). assert (E : forall A (l : list (str * A)), NoDup (map fst l) -> NoDup (map fst (filter (fun kv => keep (fst kv)) l))).
    { clear. intros A l. induction l as [|[k v] l IH]; cbn [map filter fst]; [auto|]. intros H. inversion H as [|? ? H1 H2]; subst. destruct (keep k); [|now apply IH]. cbn [map fst]. constructor; [|now apply IH]. intros N. apply H1. apply in_map_iff in N as (y & <- & Hy). apply filter_In in Hy as [Hy _]. now apply in_map. }
    apply E. exact (proj1 (proj2 (C99_mapping _ _ (fun _ _ => eq_refl) (fun _ _ => eq_refl)))). }
  assert (Ikm : In (u k) (map fst m)).
  { apply in_map_iff in Ik as ([k' v] & E & Hin). cbn in E. subst k'. destruct Hm as (keep & Em & Hkeep). apply in_map_iff. exists (u k, v). split; [reflexivity|]. rewrite Em. apply filter_In. split; [exact Hin|]. cbn [fst].
    apply Hkeep; [now left|apply not_sub]. }
  destruct (C120_order _ _ _ _ _ _ _ _ _ _ _ _ _ _ _ _ _ m (u k) HT eq_refl NDm Ikm Pk) as (f & es & ls & Hf & (found' & Hf' & Pf) & Ses & HF & Hl).
  { intros es Hes. fold sp in Hes. rewrite Km in Hes. apply all_xpaths_spec in Hes. rewrite Hfound in Hes. injection Hes as <-. split; [exact NDfound|]. intros e He. apply Infound in He as (x & Hx & _). exact (trail_erased _ _ _ Hx). }
  fold sp in Hf'. rewrite Km in Hf'. apply all_xpaths_spec in Hf'. rewrite Hfound in Hf'. injection Hf' as <-.
  exists f, es, ls. split; [exact Hf|]. split; [exact Ses|]. split; [|split; [exact HF|now rewrite Hl, concat_map]].
  intros e. rewrite <- Infound. split; intros H; [apply Permutation_sym in Pf|]; exact (Permutation_in _ Pf H).
Qed.
Lemma found_below s c e x l : In (s, c) inner_paths -> trail root e = Some x -> xpath_at root e (u s) = Ok l -> are_below root c e l.
Proof.
  intros Hin Hx E. destruct (C115_inner root e x s c Hin Hx) as (l' & E' & _ & H). rewrite E in E'. injection E' as <-. split.
  - unfold xpath_at in E. destruct (parse_xpath (u s)) as [y|]; [|discriminate]. injection E as <-. apply C114_order.
  - intros q. rewrite H. split.
    + intros (r & m & -> & T & Hm). now exists r, x, m.
    + intros (r & x' & m & -> & Hx' & T & Hm). rewrite Hx in Hx'. injection Hx' as <-. now exists r, m.
Qed.
Lemma subs_made m k f e x subs : reduced_to m (u k) -> conf_of_field m (u k) = Ok f -> trail root e = Some x ->
  sub_annotations_of sp (rd_compiles (with_texts rd)) (rd_spans (with_texts rd)) (xpath_at root) (erase root) e (fc_subs f) = Ok subs ->
  exists lists, Forall2 (sub_made sp root e) (sub_mapping m (u k)) lists /\ subs = concat lists.
Proof.
  intros Hm Hf Hx Hs. destruct Husual as (Hsp & _). fold sp in Hsp. pose proof (conf_fields _ _ _ _ _ _ _ _ _ Hf) as (_ & _ & _ & _ & _ & _ & _ & _ & _ & _ & Fsubs).
  apply (subs_spec sp (rd_compiles (with_texts rd)) (rd_spans (with_texts rd)) (xpath_at root) (erase root) (space_ws4 _ Hsp)) in Hs as (founds & HF & ->). rewrite Fsubs in *. clear Fsubs.
  assert (Hsm : forall n y, In (n, y) (sub_mapping m (u k)) -> (exists s c, In (s, c) inner_paths /\ y = u s) /\ option_of m (u k ++ u ".sub." ++ n) ".extract-regex" = None).
  { intros n y Hy. apply C62_sub_mapping in Hy as [Pn Hy]. split.
    - apply (C115_inner_all (u k ++ u ".sub." ++ n)); [exact (kept_in _ _ _ Hm Hy)|]. exists (u k). right. right. now exists n.
    - unfold option_of. destruct Hm as (keep & -> & _). rewrite dict_get_filter, <- !app_assoc, no_sub_regexes. now destruct (keep _). }
  clear - HF Hsm Hx. revert founds HF. induction (sub_mapping m (u k)) as [|[n y] sm IH]; intros founds HF; inversion HF as [|? ns ? fs H1 H2]; subst; [exists []; now split|].
  destruct (IH (fun n y H => Hsm n y (or_intror H)) fs H2) as (lists & L1 & L2). cbn [fst snd] in H1. destruct (Hsm n y (or_introl eq_refl)) as [(s & c & Hin & ->) Hre].
  eexists (_ :: lists). split; [constructor; [|exact L1]|cbn [map combine concat fst snd]; rewrite L2; reflexivity]. exists s, c, ns. split; [reflexivity|]. split; [exact Hin|]. split; [exact (found_below _ _ _ _ _ Hin Hx H1)|].
  cbn [fst snd]. rewrite Hre. clear. induction ns as [|p ps IH]; [reflexivity|]. cbn [flat_map map filter]. rewrite IH. clear IH.
  assert (C : clean_text sp (erase root) p = text_at sp root p) by (unfold clean_text, content, text_at; destruct (node_at (erase root) p); reflexivity). rewrite C.
  destruct (text_at sp root p) as [|ch t]; reflexivity.
Qed.
Theorem C121_texts : forall m k c cond l, In (k, c) text_fields -> In (k, cond) field_paths -> reduced_to m (u k) ->
  targets_of b (with_texts rd) [(u "article", m)] (article_doc excl root) = Ok l ->
  exists es ls, StronglySorted comes_before es /\ (forall e, In e es <-> exists x, trail root e = Some x /\ cond x) /\
    Forall2 (text_made sp wd root (u k) c (sub_mapping m (u k))) es ls /\
    filter (fun t => streq (tg_name t) (u k)) l = concat ls.
Proof.
  intros m k c cond l Hk Hc Hm HT. destruct (text_options _ _ Hk) as (Onone & Oignore & Pk & Ik).
  destruct (shipped_field m k cond l Hc Hm Pk Ik HT) as (f & es & ls & Hf & Ses & Ines & HF & Hl). destruct Husual as (Hsp & Hlow & _ & _ & _). fold sp in Hsp.
  exists es, (map (map snd) ls). split; [exact Ses|]. split; [exact Ines|]. split; [|exact Hl].
  pose proof (conf_fields _ _ _ _ _ _ _ _ _ Hf) as (_ & Fig & Fch & Fre & Fex & _ & Fmu & Fbo & Fne & _ & _).
  assert (K : forall s, starts_with (u ".") (u s) && negb (starts_with (u ".sub.") (u s)) = true -> option_of m (u k) s = option_of article (u k) s) by (intros s Hs; now apply kept_option).
  rewrite K, (Onone ".children"%string) in Fch by (try reflexivity; now left). cbn in Fch.
  rewrite K, (Onone ".regex"%string) in Fre by (try reflexivity; cbn; tauto). cbn in Fre.
  rewrite K, (Onone ".extract-regex"%string) in Fex by (try reflexivity; cbn; tauto). cbn in Fex.
  rewrite K, (Onone ".match-multiple"%string) in Fmu by (try reflexivity; cbn; tauto).
  rewrite K, (Onone ".bonding"%string) in Fbo by (try reflexivity; cbn; tauto).
  rewrite K, (Onone ".require-next"%string) in Fne by (try reflexivity; cbn; tauto).
  rewrite K in Fig by reflexivity. rewrite (xpaths_usual sp _ Hsp) in Fig by (intros v; apply article_ascii).
  assert (Fl : forall x : bool, (x = true <-> (None : ostr) = Some (u "true")) -> x = false) by (intros [|] [H1 H2]; [discriminate (H1 eq_refl)|reflexivity]).
  apply Fl in Fmu, Fbo, Fne.
  assert (HFe : Forall (fun e => exists x, trail root e = Some x) es) by (apply Forall_forall; intros e He; apply Ines in He as (x & Hx & _); now exists x).
  clear Ses Ines Hl. induction HF as [|e y es ls He HF IH]; cbn [map]; constructor; [|apply IH; now inversion HFe].
  inversion HFe as [|? ? (x & Hx) _]; subst. clear IH HF HFe.
  apply ents_inv in He as (subs & texts & st & Hs & Ht & ->). unfold uses_children in Ht. rewrite Fch in Ht. destruct Ht as (ex & Hex & -> & ->).
  destruct (subs_made m k f e x subs Hm Hf Hx Hs) as (lists & L1 & L2).
  assert (Ex : are_below root c e ex /\ forall q, In q ex -> exists r, r <> [] /\ q = e ++ r).
  { rewrite Fig in Hex. destruct Oignore as [[-> Oi] | (xe & Oi & Hin & Hne)].
    - rewrite Oi in Hex. destruct Hex as (ls0 & Hls & ->). inversion Hls; subst. cbn [concat]. split; [split; [constructor|]|intros q []]. intros q. split; [intros []|]. intros (r & x' & mm & _ & _ & _ & []).
    - rewrite Oi in Hex. destruct Hex as (ls0 & Hls & ->). inversion Hls as [|? ns ? ls1 H1 H2]; subst. inversion H2; subst. cbn [concat]. rewrite app_nil_r. pose proof (found_below _ _ _ _ _ Hin Hx H1) as F. split; [exact F|].
      intros q Hq. apply F in Hq as (r & x' & mm & -> & Hx' & T & C). exists r. split; [|reflexivity]. intros ->. rewrite app_nil_r in T. rewrite T in Hx'. injection Hx' as Hx'. assert (mm = []) as -> by (apply (app_inv_head x'); now rewrite app_nil_r). now apply (Hne x'). }
  destruct Ex as [Ex1 Ex2]. exists ex, lists. split; [exact Ex1|]. split; [exact L1|]. rewrite <- (raw_outside wd root ex e Ex2). subst subs.
  unfold with_pattern, with_extract. rewrite Fre, Fex. cbn [indexed length seq map combine]. rewrite app_nil_r. unfold strip_all, truthy_only. cbn [map filter]. fold sp wd.
  destruct (strip sp (raw_content wd (erase root) ex e)) as [|ch t]; cbn [nonempty text_value map snd]; [reflexivity|]. now rewrite Fmu, Fbo, Fne.
Qed.
End Fields.
(** ... as made by the commands *)
Theorem C121_command : forall b rd excl root cmd o k c cond l,
  (exists a t cs tl, root = Elem (u "article") a t cs tl) -> usual_texts b rd -> o_overrides o = [] ->
  In (k, c) text_fields -> In (k, cond) field_paths -> o_fields o = [] \/ In (u k) (o_fields o) ->
  targets_of b (with_texts rd) (fst (command_fields cmd [(u "article", article)] o)) (article_doc excl root) = Ok l ->
  exists m es ls, reduced_to m (u k) /\ fst (command_fields cmd [(u "article", article)] o) = [(u "article", m)] /\
    StronglySorted comes_before es /\ (forall e, In e es <-> exists x, trail root e = Some x /\ cond x) /\
    Forall2 (text_made (lb_sp b) (lb_wd b) root (u k) c (sub_mapping m (u k))) es ls /\
    filter (fun t => streq (tg_name t) (u k)) l = concat ls.
Proof.
  intros b rd excl root cmd o k c cond l Hroot Hu Ho Hk Hc Hf HT. destruct (text_options _ _ Hk) as (_ & _ & Pk & _).
  destruct (command_reduced cmd o k Pk Ho Hf) as (m & Hm & Em). rewrite Em in HT. destruct (C121_texts b rd excl root Hroot Hu m k c cond l Hk Hc Hm HT) as (es & ls & H1 & H2 & H3 & H4).
  exists m, es, ls. exact (conj Hm (conj Em (conj H1 (conj H2 (conj H3 H4))))).
Qed.

(* ---------------------------------------------------------------- *)
(** ** Examples *)
Definition xref (ty s : string) (tl : str) : xml := Elem (u "xref") [(u "ref-type", u ty)] (u s) [] tl.
Definition text_article : xml :=
  el "article" [el "front" [el "article-meta" [el "title-group" [Elem (u "article-title") [] (u " On ") [Elem (u "italic") [] (u "stones") [] (u " ")] []]]];
    el "body" [el "sec" [Elem (u "p") [] (u "as ") [xref "bibr" "[1]" (u ", "); el "list" [el "list-item" [Elem (u "p") [] (u "one") [] []]]; Misc (u "and"); Elem (u "fig") [] (u "F") [] (u "see ");
                                       el "bold" [Elem (u "fig") [] (u "G") [] []]; xref "fig" "Fig 2" (u "."); xref "bibr" "[2]" []] [];
                         Elem (u "p") [] (u "  ") [] []]]].
Definition text_targets : res (list tgt) := targets_of real_libs (with_texts ship_readers) [(u "article", article)] (article_doc (fun _ _ _ => []) text_article).
Example C121_ex_texts : exists l, text_targets = Ok l /\
  filter (fun t => streq (tg_name t) (u "title")) l = [mkTgt (u "title") (VOne (u "On stones")) false false false []] /\
  filter (fun t => streq (tg_name t) (u "section_paragraph")) l =
    [mkTgt (u "section_paragraph") (VOne (u "as [1], and see G Fig 2.[2]")) false false false
       [(u "section_paragraph-xref-bib", VOne (u "[1]")); (u "section_paragraph-xref-bib", VOne (u "[2]")); (u "section_paragraph-xref-figure", VOne (u "Fig 2"))]].
Proof. eexists. split; [vm_compute; reflexivity|]. split; vm_compute; reflexivity. Qed.
Example C121_ex_outside : texts_outside text_article [[1; 0; 0; 1]; [1; 0; 0; 3]] [1; 0; 0] = [u "as "; u "[1]"; u ", "; u "and"; u "see "; u "G"; u "Fig 2"; u "."; u "[2]"].
Proof. vm_compute. reflexivity. Qed.
Example C121_ex_meets : reduced_to article (u "section_paragraph") /\ (exists a t cs tl, text_article = Elem (u "article") a t cs tl) /\ usual_texts real_libs ship_readers /\ (exists l, text_targets = Ok l) /\
  (exists c, In ("section_paragraph"%string, c) text_fields) /\ (exists c, In ("section_paragraph"%string, c) field_paths).
Proof.
  split; [exists (fun _ => true); split; [|reflexivity]; symmetry; now apply PropTargets.filter_every|]. split; [now repeat eexists|]. split; [exact (proj1 C118_ex_texts)|]. split; [eexists; vm_compute; reflexivity|].
  split; eexists; [unfold text_fields; apply in_or_app; right; now left|]. unfold field_paths. do 14 right. now left.
Qed.
Print Assumptions C121_texts.
Print Assumptions C121_command.
