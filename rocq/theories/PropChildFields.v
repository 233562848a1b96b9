(** C122: keywords, lists and page numbers: which target annotations the mapping of the repository
    makes of any article. *)
From Coq Require Import Permutation Sorted.
From Verif Require Import Base ModelTags ModelXml ModelClusters PropClusters ModelMapping PropMapping ModelTarget ModelFuzzyMatch ModelJoined ModelWordMatch PropTarget ModelTargets PropTargets PropChildren ModelAnnotators ModelCommands ModelRuns PropNames PropIni
  ModelJatsText ModelXPath PropXPath PropShipped PropShippedPaths ModelPrefixes ModelJson PropJson PropShippedReads PropSaves PropTotal PropCaptions PropFields.
Require Import Lia.
Import ListNotations.
Open Scope list_scope.
Open Scope nat_scope.

(* ---------------------------------------------------------------- *)
(** ** Specification *)
Section Spec.
Variables sp dg : N -> bool.
Variable parse_int : str -> option Z.
Variable show_int : Z -> str.
Variable root : xml.
(** the texts of elements: a text that is empty is left out; one annotation for all of them *)
Definition all_made (k : str) (texts : list str) (ts : list tgt) : Prop :=
  match filter (fun s => negb (streq s [])) texts with
  | [] => ts = []
  | texts => exists v, ts = [mkTgt k v false false false []] /\ is_value texts v
  end.
Notation text := (text_at sp root).
(** all keywords of a group as one text *)
Definition keywords_made (e : npath) (ts : list tgt) : Prop :=
  exists kwds, are_below root rel_keyword e kwds /\ all_made (u "keywords") [strip sp (join_str (u " ") (map text kwds))] ts.
(** the parts of a list other than its items, whatever [list.ignore] says *)
Definition list_made (e : npath) (ts : list tgt) : Prop :=
  exists parts, are_below root (rel_child_but "list-item") e parts /\ all_made (u "list") (map text parts) ts.
(** the numbers from the first to the last page, one by one; what there is of them if they are not numbers *)
Definition pages_made (e : npath) (ts : list tgt) : Prop :=
  exists firsts lasts both, are_below root (rel_path ["fpage"%string]) e firsts /\ are_below root (rel_path ["lpage"%string]) e lasts /\
    are_below root (rel_either (rel_path ["fpage"%string]) (rel_path ["lpage"%string])) e both /\
    let a := strip sp (join_str (u " ") (map text firsts)) in
    let b := strip sp (join_str (u " ") (map text lasts)) in
    if is_digits dg a && is_digits dg b
    then exists za zb zs, parse_int a = Some za /\ parse_int b = Some zb /\ StronglySorted Z.lt zs /\ (forall z, In z zs <-> (za <= z <= zb)%Z) /\
           ts = map (fun z => mkTgt (u "page_no") (VOne (show_int z)) false false false []) zs
    else all_made (u "page_no") (map text both) ts.
End Spec.

(* ---------------------------------------------------------------- *)
(** ** Proofs *)
Section Own.
Variables sp wd dg : N -> bool.
Hypothesis sp_ws4 : forall c, ws4 c = true -> sp c = true.
Variable parse_int : str -> option Z.
Variable show_int : Z -> str.
Variable excl : list npath -> npath -> str.
Variable root : xml.
Notation text := (text_at sp root).
Lemma map_stripped l : mapM (fun p => stripped sp (content (erase root) p)) l = Ok (map text l).
Proof. apply mapM_ok. intros p. apply text_stripped. Qed.
Lemma one_child c e l : are_below root c e l -> (forall b m, c b m -> length m = 1) -> forall q, In q l -> exists i, q = e ++ [i].
Proof.
  intros [_ H] L q Hq. apply H in Hq as (r & b & m & -> & Hb & Hq & Hm). apply L in Hm. destruct m as [|[k a] [|? ?]]; try discriminate.
  destruct (trail_below root e b (e ++ r) [(k, a)] Hb (ex_intro _ r (conj eq_refl Hq)) k a eq_refl) as (x & i & t & cs & tl & _ & E & _). now exists i.
Qed.
(** children that are the element's own *)
Lemma own_children e f cx l cvs cns rvs st rns : fc_children f = [cx] -> fc_unmatched f = false -> xpath_at root e cx = Ok l -> (forall q, In q l -> exists i, q = e ++ [i]) ->
  children_concat sp (xpath_at root) (erase root) e (fc_concat f) = Ok (cvs, cns) ->
  children_range sp dg parse_int show_int (xpath_at root) (erase root) e (fc_range f) = Ok (rvs, st, rns) ->
  extract_children sp dg parse_int show_int (xpath_at root) excl (erase root) e f =
  Ok (filter (fun s => negb (streq s [])) (map text (filter (fun p => negb (pmem p (cns ++ rns))) l) ++ map (strip sp) (cvs ++ rvs)), st).
Proof.
  intros Fc Fu Hx Hl Hc Hr. unfold extract_children. rewrite Hc, Hr, Fc, Fu. cbn [bind fst snd]. unfold all_xpaths. cbn [mapM]. rewrite Hx. cbn [bind concat]. rewrite app_nil_r.
  set (other := filter _ l).
  assert (Ho : exclude_parents other = other). { apply (exclude_children e). intros q Hq. apply filter_In in Hq as [Hq _]. now apply Hl. }
  rewrite Ho, map_stripped. cbn [bind].
  assert (Hi : filter (fun p => negb (pmem p other)) other = []). { apply PropTargets.filter_none. intros q Hq. apply negb_false_iff. unfold pmem. apply existsb_exists. exists q. split; [exact Hq|now apply peq_spec]. }
  rewrite Hi. cbn [flat_map]. rewrite app_nil_r. f_equal. f_equal. unfold truthy_only, strip_all. rewrite nonempty_streq. f_equal. rewrite map_app. f_equal. rewrite map_map. apply map_ext. intros p. now apply text_strip.
Qed.
Lemma one_source e x l : u x <> [] -> xpath_at root e (u x) = Ok l -> (forall q, In q l -> exists i, q = e ++ [i]) -> forall vs ns rest,
  source_list_go sp (xpath_at root) (erase root) e vs ns (at_xpath x :: rest) =
  match l with [] => Ok ([], []) | _ => source_list_go sp (xpath_at root) (erase root) e (vs ++ [join_str (u " ") (map text l)]) (ns ++ l) rest end.
Proof.
  intros N Hx Hl vs ns rest. cbn [source_list_go]. unfold at_xpath at 1. cbn [s_xpath]. destruct (u x) as [|c0 s0] eqn:U; [easy|]. rewrite Hx. cbn [bind]. rewrite (exclude_children e l Hl). destruct l as [|p l]; [reflexivity|]. rewrite map_stripped. reflexivity.
Qed.
Lemma nothing_left l l' : (forall q, In q l -> In q l') -> filter (fun p => negb (pmem p l')) l = [].
Proof. intros H. apply PropTargets.filter_none. intros q Hq. apply negb_false_iff. unfold pmem. apply existsb_exists. exists q. split; [now apply H|now apply peq_spec]. Qed.
Lemma pmem_nil (l : list npath) : filter (fun p => negb (pmem p [])) l = l.
Proof. now apply PropTargets.filter_every. Qed.
End Own.
Definition child_fields : list (string * string) := [("keywords", "kwd[@kwd-group-type='author-keywords' or not(@kwd-group-type)]"); ("list", "./*[not(self::list-item)]"); ("page_no", "fpage|lpage")]%string.
Lemma child_options k cx : In (k, cx) child_fields ->
  (forall s, In s [".regex"; ".extract-regex"; ".unmatched-parent-text"; ".match-multiple"; ".bonding"; ".require-next"]%string -> option_of article (u k) s = None) /\
  parse_xpaths ascii_space (option_of article (u k) ".children") = [u cx] /\ sub_mapping article (u k) = [] /\ plain_name (u k) /\ In (u k) (map fst article) /\ streq (u cx) wildcard = false.
Proof.
  intros H. assert (E : forallb (fun r => let '(k, cx) := r in
     forallb (fun s => match option_of article (u k) s with None => true | _ => false end) [".regex"; ".extract-regex"; ".unmatched-parent-text"; ".match-multiple"; ".bonding"; ".require-next"]%string &&
     match parse_xpaths ascii_space (option_of article (u k) ".children") with [x] => streq x (u cx) | _ => false end && match sub_mapping article (u k) with [] => true | _ => false end &&
     negb (has ch_dot (u k)) && mem (u k) (map fst article) && negb (streq (u cx) wildcard)) child_fields = true) by (vm_compute; reflexivity).
  rewrite forallb_forall in E. specialize (E _ H). cbv beta iota in E. rewrite !andb_true_iff in E. destruct E as [[[[[E1 E2] E3] E4] E5] E6].
  split; [|split; [|split; [|split; [|split]]]].
  - intros s Hs. rewrite forallb_forall in E1. specialize (E1 s Hs). now destruct (option_of article (u k) s).
  - destruct (parse_xpaths _ _) as [|x [|? ?]]; try discriminate. apply streq_true in E2. now subst.
  - now destruct (sub_mapping article (u k)).
  - apply negb_true_iff in E4. now apply has_false.
  - now apply mem_In.
  - now apply negb_true_iff in E6.
Qed.
Section Fields.
Variable b : libs.
Variable rd : readers.
Variable excl : xml -> list npath -> npath -> str.
Variable root : xml.
Hypothesis Hroot : exists a t cs tl, root = Elem (u "article") a t cs tl.
Hypothesis Husual : usual_texts b rd.
Let sp := lb_sp b.
Let dg := lb_dg b.
Notation conf_of_field := (field_conf sp (lb_lower b) (rd_compiles (with_texts rd)) (lb_int b) (rd_json_concat (with_texts rd)) (rd_json_range (with_texts rd))).
Notation children_of := (extract_children sp dg (lb_int b) (rd_show_int (with_texts rd)) (xpath_at root) (excl root) (erase root)).
(** the annotations of such a field are those of its children *)
Lemma child_field m k cx cond l : In (k, cx) child_fields -> In (k, cond) field_paths -> reduced_to m (u k) ->
  targets_of b (with_texts rd) [(u "article", m)] (article_doc excl root) = Ok l ->
  exists f es ls, StronglySorted comes_before es /\ (forall e, In e es <-> exists x, trail root e = Some x /\ cond x) /\
    fc_children f = [u cx] /\ fc_unmatched f = false /\ or_default read_concat (option_of article (u k) ".children.concat") = Ok (fc_concat f) /\ or_default read_range (option_of article (u k) ".children.range") = Ok (fc_range f) /\
    Forall2 (fun e ts => exists x texts st, trail root e = Some x /\ children_of e f = Ok (texts, st) /\
      ts = match text_value texts with Some v => [mkTgt (u k) v false false false []] | None => [] end ++ map (fun s => mkTgt (u k) (VOne s) false false false []) st) es ls /\
    filter (fun t => streq (tg_name t) (u k)) l = concat ls.
Proof.
  intros Hk Hc Hm HT. destruct (child_options _ _ Hk) as (Onone & Och & Osub & Pk & Ik & Ow).
  destruct (shipped_field b rd excl root Hroot Husual m k cond l Hc Hm Pk Ik HT) as (f & es & ls & Hf & Ses & Ines & HF & Hl). destruct Husual as (Hsp & Hlow & _ & _ & _). fold sp in Hsp.
  exists f, es, (map (map snd) ls). split; [exact Ses|]. split; [exact Ines|].
  pose proof (conf_fields _ _ _ _ _ _ _ _ _ Hf) as (_ & Fig & Fch & Fre & Fex & _ & Fmu & Fbo & Fne & Fun & Fsubs). destruct (conf_concat _ _ _ _ _ _ _ _ _ Hf) as [Fco Fra].
  assert (K : forall s, starts_with (u ".") (u s) && negb (starts_with (u ".sub.") (u s)) = true -> option_of m (u k) s = option_of article (u k) s) by (intros s Hs; now apply kept_option).
  rewrite K, (Onone ".regex"%string) in Fre by (try reflexivity; cbn; tauto). cbn in Fre.
  rewrite K, (Onone ".extract-regex"%string) in Fex by (try reflexivity; cbn; tauto). cbn in Fex.
  rewrite K, (Onone ".match-multiple"%string) in Fmu by (try reflexivity; cbn; tauto).
  rewrite K, (Onone ".bonding"%string) in Fbo by (try reflexivity; cbn; tauto).
  rewrite K, (Onone ".require-next"%string) in Fne by (try reflexivity; cbn; tauto).
  rewrite K, (Onone ".unmatched-parent-text"%string) in Fun by (try reflexivity; cbn; tauto).
  rewrite K in Fch by reflexivity. fold sp in Fch. rewrite (xpaths_usual sp _ Hsp), Och in Fch by (intros v; apply article_ascii).
  rewrite K in Fco, Fra by reflexivity.
  assert (Fl : forall x : bool, (x = true <-> (None : ostr) = Some (u "true")) -> x = false) by (intros [|] [H1 H2]; [discriminate (H1 eq_refl)|reflexivity]).
  apply Fl in Fmu, Fbo, Fne, Fun.
  assert (Es : sub_mapping m (u k) = []).
  { destruct (sub_mapping m (u k)) as [|[n y] sm] eqn:E; [reflexivity|]. exfalso. assert (Hy : In (n, y) (sub_mapping m (u k))) by (rewrite E; now left). apply C62_sub_mapping in Hy as [Pn Hy].
    assert (Hy' : In (n, y) (sub_mapping article (u k))) by (apply C62_sub_mapping; split; [exact Pn|exact (kept_in _ _ _ Hm Hy)]). rewrite Osub in Hy'. destruct Hy'. }
  rewrite Es in Fsubs. cbn in Fsubs.
  split; [exact Fch|]. split; [exact Fun|]. split; [exact Fco|]. split; [exact Fra|]. split; [|exact Hl].
  assert (HFe : Forall (fun e => exists x, trail root e = Some x) es) by (apply Forall_forall; intros e He; apply Ines in He as (x & Hx & _); now exists x).
  clear Ses Ines Hl. induction HF as [|e y es ls He HF IH]; cbn [map]; constructor; [|apply IH; now inversion HFe].
  inversion HFe as [|? ? (x & Hx) _]; subst. clear IH HF HFe.
  apply ents_inv in He as (subs & texts & st & Hs & Ht & ->). assert (U : uses_children (lb_sp b) (erase root) f e = true) by (unfold uses_children; now rewrite Fch, Ow). rewrite U in Ht.
  rewrite Fsubs in Hs. cbn in Hs. injection Hs as <-. exists x, texts, st. split; [exact Hx|]. split; [exact Ht|]. unfold with_pattern, with_extract. rewrite Fre, Fex, Fmu, Fbo, Fne, map_app. f_equal.
  - now destruct (text_value texts).
  - rewrite map_map. cbn [snd]. unfold indexed. clear. generalize 0. induction st as [|s st IH]; intros i; cbn [length seq map combine snd]; [reflexivity|]. f_equal. apply IH.
Qed.
Lemma all_made_of k texts ts : ts = match text_value (filter (fun s => negb (streq s [])) texts) with Some v => [mkTgt k v false false false []] | None => [] end ++ map (fun s => mkTgt k (VOne s) false false false []) [] -> all_made k texts ts.
Proof.
  intros ->. unfold all_made. cbn [map]. rewrite app_nil_r. destruct (filter _ texts) as [|t0 l] eqn:E; [reflexivity|]. destruct (text_value (t0 :: l)) as [v|] eqn:Ev; [|now destruct l]. exists v. split; [reflexivity|]. now apply value_is.
Qed.
Theorem C122_keywords : forall m l, reduced_to m (u "keywords") -> targets_of b (with_texts rd) [(u "article", m)] (article_doc excl root) = Ok l ->
  exists es ls, StronglySorted comes_before es /\ (forall e, In e es <-> exists x, trail root e = Some x /\ at_path ["front"; "article-meta"; "kwd-group"]%string x) /\
    Forall2 (keywords_made sp root) es ls /\ filter (fun t => streq (tg_name t) (u "keywords")) l = concat ls.
Proof.
  intros m l Hm HT. assert (Hsp := proj1 Husual). fold sp in Hsp.
  destruct (child_field m "keywords" "kwd[@kwd-group-type='author-keywords' or not(@kwd-group-type)]" (at_path ["front"; "article-meta"; "kwd-group"]%string) l) as (f & es & ls & Ses & Ines & Fch & Fun & Fco & Fra & HF & Hl); try assumption; [now left|unfold field_paths; do 7 right; now left|].
  exists es, ls. split; [exact Ses|]. split; [exact Ines|]. split; [|exact Hl].
  assert (Fra' : fc_range f = []).
  { assert (E : or_default read_range (option_of article (u "keywords") ".children.range") = Ok []) by (vm_compute; reflexivity). rewrite E in Fra. now injection Fra as <-. }
  clear Fra.
  assert (Fco' : fc_concat f = [[at_xpath "kwd[@kwd-group-type='author-keywords' or not(@kwd-group-type)]"]]).
  { assert (E : or_default read_concat (option_of article (u "keywords") ".children.concat") = Ok [[at_xpath "kwd[@kwd-group-type='author-keywords' or not(@kwd-group-type)]"]]) by (vm_compute; reflexivity). rewrite E in Fco. now injection Fco as <-. }
  clear - HF Fch Fun Fco' Fra' Hsp. induction HF as [|e ts es ls (x & texts & st & Hx & Ht & Hts) HF IH]; constructor; [|exact IH]. clear IH HF.
  set (kw := "kwd[@kwd-group-type='author-keywords' or not(@kwd-group-type)]"%string) in *. assert (Hin : In (kw, rel_keyword) inner_paths) by (right; right; now left).
  destruct (C115_inner root e x kw rel_keyword Hin Hx) as (kwds & Hkw & _). pose proof (found_below root kw rel_keyword e x kwds Hin Hx Hkw) as Hb. exists kwds. split; [exact Hb|].
  assert (Hone : forall q, In q kwds -> exists i, q = e ++ [i]) by (apply (one_child root rel_keyword e kwds Hb); intros bb mm (a & -> & _); reflexivity).
  assert (Hcc : children_concat sp (xpath_at root) (erase root) e (fc_concat f) = Ok (match kwds with [] => [] | _ => [join_str (u " ") (map (text_at sp root) kwds)] end, kwds)).
  { rewrite Fco'. unfold children_concat. cbn [foldM]. unfold source_list. rewrite (one_source sp root e kw kwds) by (try assumption; discriminate). destruct kwds as [|p ps]; [reflexivity|]. cbn [source_list_go bind fst snd app concat]. now rewrite app_nil_r. }
  assert (Hrr : children_range sp dg (lb_int b) (rd_show_int (with_texts rd)) (xpath_at root) (erase root) e (fc_range f) = Ok ([], [], [])) by (rewrite Fra'; reflexivity).
  rewrite (own_children sp dg (space_ws4 _ Hsp) _ _ (excl root) root e f (u kw) kwds _ kwds [] [] [] Fch Fun Hkw Hone Hcc Hrr) in Ht. injection Ht as <- <-. rewrite (app_nil_r kwds), nothing_left in Hts by (intros q Hq; exact Hq). cbn [map app] in Hts.
  apply all_made_of. rewrite Hts. cbn [map]. destruct kwds as [|p ps]; cbn [map app filter join_str]; [|now rewrite app_nil_r]. unfold strip. cbn. reflexivity.
Qed.
Theorem C122_list : forall m l, reduced_to m (u "list") -> targets_of b (with_texts rd) [(u "article", m)] (article_doc excl root) = Ok l ->
  exists es ls, StronglySorted comes_before es /\ (forall e, In e es <-> exists x, trail root e = Some x /\ anywhere ["list"]%string x) /\
    Forall2 (list_made sp root) es ls /\ filter (fun t => streq (tg_name t) (u "list")) l = concat ls.
Proof.
  intros m l Hm HT. assert (Hsp := proj1 Husual). fold sp in Hsp.
  destruct (child_field m "list" "./*[not(self::list-item)]" (anywhere ["list"]%string) l) as (f & es & ls & Ses & Ines & Fch & Fun & Fco & Fra & HF & Hl); try assumption; [right; now left|unfold field_paths; do 23 right; now left|].
  exists es, ls. split; [exact Ses|]. split; [exact Ines|]. split; [|exact Hl].
  assert (Fra' : fc_range f = []).
  { assert (E : or_default read_range (option_of article (u "list") ".children.range") = Ok []) by (vm_compute; reflexivity). rewrite E in Fra. now injection Fra as <-. }
  assert (Fco' : fc_concat f = []).
  { assert (E : or_default read_concat (option_of article (u "list") ".children.concat") = Ok []) by (vm_compute; reflexivity). rewrite E in Fco. now injection Fco as <-. }
  clear - HF Fch Fun Fco' Fra' Hsp. induction HF as [|e ts es ls (x & texts & st & Hx & Ht & Hts) HF IH]; constructor; [|exact IH]. clear IH HF.
  set (cx := "./*[not(self::list-item)]"%string) in *. assert (Hin : In (cx, rel_child_but "list-item") inner_paths) by (do 4 right; now left).
  destruct (C115_inner root e x cx _ Hin Hx) as (parts & Hp & _). pose proof (found_below root cx _ e x parts Hin Hx Hp) as Hb. exists parts. split; [exact Hb|].
  assert (Hone : forall q, In q parts -> exists i, q = e ++ [i]) by (apply (one_child root _ e parts Hb); intros bb mm (a & E & _); apply (f_equal (@length str)) in E; unfold names in E; now rewrite map_length in E).
  rewrite (own_children sp dg (space_ws4 _ Hsp) _ _ (excl root) root e f (u cx) parts [] [] [] [] [] Fch Fun Hp Hone) in Ht by (rewrite ?Fco', ?Fra'; reflexivity). injection Ht as <- <-. cbn [app] in Hts. rewrite pmem_nil in Hts. cbn [map] in Hts. rewrite app_nil_r in Hts.
  apply all_made_of. rewrite Hts. now rewrite !app_nil_r.
Qed.
Theorem C122_pages : forall m l, reduced_to m (u "page_no") -> targets_of b (with_texts rd) [(u "article", m)] (article_doc excl root) = Ok l ->
  exists es ls, StronglySorted comes_before es /\ (forall e, In e es <-> exists x, trail root e = Some x /\ at_path ["front"; "article-meta"]%string x) /\
    Forall2 (pages_made sp dg (lb_int b) (rd_show_int rd) root) es ls /\ filter (fun t => streq (tg_name t) (u "page_no")) l = concat ls.
Proof.
  intros m l Hm HT. assert (Hsp := proj1 Husual). fold sp in Hsp.
  destruct (child_field m "page_no" "fpage|lpage" (at_path ["front"; "article-meta"]%string) l) as (f & es & ls & Ses & Ines & Fch & Fun & Fco & Fra & HF & Hl); try assumption; [do 2 right; now left|unfold field_paths; repeat first [left; reflexivity|right]|].
  exists es, ls. split; [exact Ses|]. split; [exact Ines|]. split; [|exact Hl].
  assert (Fra' : fc_range f = [page_range]).
  { assert (E : or_default read_range (option_of article (u "page_no") ".children.range") = Ok [page_range]) by (vm_compute; reflexivity). rewrite E in Fra. now injection Fra as <-. }
  assert (Fco' : fc_concat f = []).
  { assert (E : or_default read_concat (option_of article (u "page_no") ".children.concat") = Ok []) by (vm_compute; reflexivity). rewrite E in Fco. now injection Fco as <-. }
  clear - HF Fch Fun Fco' Fra' Hsp. induction HF as [|e ts es ls (x & texts & st & Hx & Ht & Hts) HF IH]; constructor; [|exact IH]. clear IH HF.
  assert (I1 : In ("fpage"%string, rel_path ["fpage"%string]) inner_paths) by (unfold inner_paths; do 14 right; now left).
  assert (I2 : In ("lpage"%string, rel_path ["lpage"%string]) inner_paths) by (unfold inner_paths; do 15 right; now left).
  assert (I3 : In ("fpage|lpage"%string, rel_either (rel_path ["fpage"%string]) (rel_path ["lpage"%string])) inner_paths) by (do 5 right; now left).
  destruct (C115_inner root e x _ _ I1 Hx) as (fs & H1 & _). destruct (C115_inner root e x _ _ I2 Hx) as (ps & H2 & _). destruct (C115_inner root e x _ _ I3 Hx) as (both & H3 & _).
  pose proof (found_below root _ _ e x fs I1 Hx H1) as B1. pose proof (found_below root _ _ e x ps I2 Hx H2) as B2. pose proof (found_below root _ _ e x both I3 Hx H3) as B3.
  assert (L : forall n bb mm, rel_path [n] bb mm -> length mm = 1) by (intros n bb mm E; unfold rel_path, names in E; apply (f_equal (@length str)) in E; now rewrite map_length in E).
  assert (O1 : forall q, In q fs -> exists i, q = e ++ [i]) by (exact (one_child root _ e fs B1 (L "fpage"%string))).
  assert (O2 : forall q, In q ps -> exists i, q = e ++ [i]) by (exact (one_child root _ e ps B2 (L "lpage"%string))).
  assert (O3 : forall q, In q both -> exists i, q = e ++ [i]) by (apply (one_child root _ e both B3); intros bb mm [H|H]; [exact (L _ _ _ H)|exact (L _ _ _ H)]).
  exists fs, ps, both. split; [exact B1|]. split; [exact B2|]. split; [exact B3|]. cbv zeta. set (a := strip sp (join_str (u " ") (map (text_at sp root) fs))). set (z := strip sp (join_str (u " ") (map (text_at sp root) ps))).
  assert (S : source_list sp (xpath_at root) (erase root) e [at_xpath "fpage"; at_xpath "lpage"] =
     match fs, ps with _ :: _, _ :: _ => Ok ([join_str (u " ") (map (text_at sp root) fs); join_str (u " ") (map (text_at sp root) ps)], fs ++ ps) | _, _ => Ok ([], []) end).
  { unfold source_list. rewrite (one_source sp root e "fpage" fs) by (try assumption; discriminate). destruct fs as [|p fs']; [reflexivity|]. rewrite (one_source sp root e "lpage" ps) by (try assumption; discriminate). destruct ps as [|p' ps']; reflexivity. }
  assert (R : children_range sp dg (lb_int b) (rd_show_int (with_texts rd)) (xpath_at root) (erase root) e (fc_range f) =
     if is_digits dg a && is_digits dg z then do na <- to_int (lb_int b) a ;; do nb <- to_int (lb_int b) z ;; Ok ([], map (rd_show_int rd) (numbers na nb), fs ++ ps) else Ok ([], [], [])).
  { rewrite Fra'. unfold children_range. cbn [foldM]. unfold range_step. cbn [page_range ri_min ri_max ri_standalone]. rewrite S.
    destruct fs as [|p fs']; [cbn [bind fst snd strip_all map]; subst a; reflexivity|]. destruct ps as [|p' ps']; [cbn [bind fst snd strip_all map]; subst z; now rewrite andb_false_r|].
    cbn [bind fst snd]. unfold strip_all. cbn [map] in *. fold a z. cbv zeta. destruct (is_digits dg a && is_digits dg z); [|reflexivity]. destruct (to_int (lb_int b) a); [|reflexivity]. cbn [bind]. destruct (to_int (lb_int b) z); reflexivity. }
  assert (C : children_concat sp (xpath_at root) (erase root) e (fc_concat f) = Ok ([], [])) by (rewrite Fco'; reflexivity).
  destruct (is_digits dg a && is_digits dg z).
  - unfold to_int in R. destruct (lb_int b a) as [na|] eqn:Ea; cbn [bind] in R; [|unfold extract_children in Ht; rewrite C in Ht; cbn [bind] in Ht; rewrite R in Ht; discriminate].
    destruct (lb_int b z) as [nb|] eqn:Eb; cbn [bind] in R; [|unfold extract_children in Ht; rewrite C in Ht; cbn [bind] in Ht; rewrite R in Ht; discriminate].
    rewrite (own_children sp dg (space_ws4 _ Hsp) _ _ (excl root) root e f (u "fpage|lpage") both [] [] _ _ _ Fch Fun H3 O3 C R) in Ht. injection Ht as <- <-. cbn [app] in Hts.
    rewrite nothing_left in Hts.
    + cbn [map app filter text_value] in Hts. exists na, nb, (numbers na nb). split; [reflexivity|]. split; [reflexivity|]. split; [apply numbers_spec|]. split; [apply numbers_spec|]. rewrite Hts, map_map. reflexivity.
    + intros q Hq. apply B3 in Hq as (r & bb & mm & -> & Hbb & Hq & [Hm|Hm]); apply in_app_iff; [left; apply B1|right; apply B2]; now exists r, bb, mm.
  - rewrite (own_children sp dg (space_ws4 _ Hsp) _ _ (excl root) root e f (u "fpage|lpage") both [] [] _ _ _ Fch Fun H3 O3 C R) in Ht. injection Ht as <- <-. cbn [app] in Hts. rewrite pmem_nil in Hts. cbn [map] in Hts. rewrite app_nil_r in Hts.
    apply all_made_of. rewrite Hts. now rewrite !app_nil_r.
Qed.
End Fields.
(** ... as made by the commands *)
Theorem C122_command : forall b rd excl root cmd o l,
  (exists a t cs tl, root = Elem (u "article") a t cs tl) -> usual_texts b rd -> o_overrides o = [] ->
  targets_of b (with_texts rd) (fst (command_fields cmd [(u "article", article)] o)) (article_doc excl root) = Ok l ->
  let made k cond (spec : npath -> list tgt -> Prop) := o_fields o = [] \/ In (u k) (o_fields o) ->
    exists es ls, StronglySorted comes_before es /\ (forall e, In e es <-> exists x, trail root e = Some x /\ cond x) /\ Forall2 spec es ls /\
      filter (fun t => streq (tg_name t) (u k)) l = concat ls in
  made "keywords"%string (at_path ["front"; "article-meta"; "kwd-group"]%string) (keywords_made (lb_sp b) root) /\
  made "list"%string (anywhere ["list"]%string) (list_made (lb_sp b) root) /\
  made "page_no"%string (at_path ["front"; "article-meta"]%string) (pages_made (lb_sp b) (lb_dg b) (lb_int b) (rd_show_int rd) root).
Proof.
  intros b rd excl root cmd o l Hroot Hu Ho HT. cbv zeta.
  assert (P : forall k cx, In (k, cx) child_fields -> o_fields o = [] \/ In (u k) (o_fields o) -> exists m, reduced_to m (u k) /\ targets_of b (with_texts rd) [(u "article", m)] (article_doc excl root) = Ok l).
  { intros k cx Hk Hf. destruct (child_options _ _ Hk) as (_ & _ & _ & Pk & _). destruct (command_reduced cmd o k Pk Ho Hf) as (m & Hm & Em). exists m. split; [exact Hm|]. now rewrite <- Em. }
  split; [|split]; intros Hf.
  - destruct (P _ _ (or_introl eq_refl) Hf) as (m & Hm & HT'). now apply (C122_keywords b rd excl root Hroot Hu m l).
  - destruct (P _ _ (or_intror (or_introl eq_refl)) Hf) as (m & Hm & HT'). now apply (C122_list b rd excl root Hroot Hu m l).
  - destruct (P _ _ (or_intror (or_intror (or_introl eq_refl))) Hf) as (m & Hm & HT'). now apply (C122_pages b rd excl root Hroot Hu m l).
Qed.

(* ---------------------------------------------------------------- *)
(** ** Examples *)
Definition tx (n s : string) : xml := Elem (u n) [] (u s) [] [].
Definition meta_article (pages : list xml) : xml :=
  el "article" [el "front" [el "article-meta" (pages ++ [el "kwd-group" [tx "kwd" " stones"; tx "title" "Keywords"; tx "kwd" "trees "]; el "kwd-group" [tx "title" "Others"]])];
    el "body" [el "list" [tx "title" "A list"; tx "list-item" "one"; el "boxed-text" [tx "caption" "of"; tx "fig" "Figure 1"]; tx "label" " "]; el "list" [tx "list-item" "two"]]].
Definition meta_targets (pages : list xml) : res (list tgt) := targets_of real_libs (with_texts ship_readers) [(u "article", article)] (article_doc (fun _ _ _ => []) (meta_article pages)).
Definition named (k : string) (r : res (list tgt)) : res (list tvalue) := match r with Ok l => Ok (map tg_value (filter (fun t => streq (tg_name t) (u k)) l)) | Err e => Err e end.
Example C122_ex_keywords : named "keywords" (meta_targets []) = Ok [VOne (u "stones trees")].
Proof. vm_compute. reflexivity. Qed.
(** what [list.ignore] names is in the annotation all the same *)
Example C122_ex_list : named "list" (meta_targets []) = Ok [VMany [u "ofFigure 1"; u "A list"]].
Proof. vm_compute. reflexivity. Qed.
Example C122_ex_pages : named "page_no" (meta_targets [tx "fpage" "7"; tx "lpage" " 9"]) = Ok [VOne (u "7"); VOne (u "8"); VOne (u "9")] /\
  named "page_no" (meta_targets [tx "lpage" "7"; tx "fpage" "e1"]) = Ok [VMany [u "e1"; u "7"]] /\ named "page_no" (meta_targets [tx "fpage" "9"; tx "lpage" "8"]) = Ok [] /\ named "page_no" (meta_targets [tx "fpage" "8"]) = Ok [VOne (u "8")].
Proof. split; [|split; [|split]]; vm_compute; reflexivity. Qed.
Example C122_ex_meets : reduced_to article (u "list") /\ (exists a t cs tl, meta_article [] = Elem (u "article") a t cs tl) /\ usual_texts real_libs ship_readers /\ (exists l, meta_targets [] = Ok l).
Proof.
  split; [exists (fun _ => true); split; [|reflexivity]; symmetry; now apply PropTargets.filter_every|]. split; [now repeat eexists|]. split; [exact (proj1 C118_ex_texts)|]. eexists; vm_compute; reflexivity.
Qed.
Print Assumptions C122_keywords.
Print Assumptions C122_list.
Print Assumptions C122_pages.
Print Assumptions C122_command.
