(** C124: authors, affiliations and references, whose texts are those of all elements inside: which
    target annotations the mapping of the repository makes of any article. *)
From Coq Require Import Permutation Sorted.
From Verif Require Import Base ModelTags ModelXml ModelClusters PropClusters ModelMapping PropMapping ModelTarget ModelFuzzyMatch ModelJoined ModelWordMatch PropTarget ModelTargets PropTargets PropChildren ModelAnnotators ModelCommands ModelRuns PropNames PropIni
  ModelJatsText ModelXPath PropXPath PropShipped PropShippedPaths ModelPrefixes ModelJson PropJson PropShippedReads PropSaves PropTotal PropCaptions PropFields PropChildFields.
Require Import Lia.
Import ListNotations.
Open Scope list_scope.
Open Scope nat_scope.

(* ---------------------------------------------------------------- *)
(** ** Specification *)
Section Spec.
Variables sp wd : N -> bool.
Variable root : xml.
(** [get_text_content] with elements to leave out *)
Variable excl : list npath -> npath -> str.
Definition not_blank (s : str) : Prop := exists c, In c s /\ sp c = false.
(** texts beside elements or comments: not all texts are those of elements without any content *)
Definition mixed (e : npath) : Prop :=
  exists r n a t cs tl, xml_at root (e ++ r) = Some (Elem n a t cs tl) /\ (r = [] \/ cs <> []) /\ (not_blank t \/ exists c, In c cs /\ not_blank (xtail c)).
Notation text := (text_at sp root).
(** the elements of a name inside [e], without those that are parents of such elements *)
Definition innermost (n : string) (e : npath) (l : list npath) : Prop :=
  exists found, are_below root (rel_below [n]) e found /\ StronglySorted comes_before l /\
    forall q, In q l <-> In q found /\ forall i, ~ In (q ++ [i]) found.
(** first and last page are put together; the elements used for that *)
Definition page_pair (e : npath) (used : list npath) (texts : list str) : Prop :=
  exists firsts lasts, innermost "fpage" e firsts /\ innermost "lpage" e lasts /\
    ((firsts <> [] /\ lasts <> [] /\ used = firsts ++ lasts /\ texts = [strip sp (join_str (u " ") (map text firsts) ++ u "-" ++ join_str (u " ") (map text lasts))]) \/
     ((firsts = [] \/ lasts = []) /\ used = [] /\ texts = [])).
(** the texts of an element *)
Definition inner_texts (pages rest : bool) (e : npath) (texts : list str) : Prop :=
  exists inside used pair parts, are_below root rel_all e inside /\ (if pages then page_pair e used pair else used = [] /\ pair = []) /\
    StronglySorted comes_before parts /\ (forall q, In q parts <-> In q inside /\ ~ In q used /\ forall i, In (q ++ [i]) inside -> In (q ++ [i]) used) /\
    let own := filter (fun s => negb (streq s [])) (map text parts ++ pair) in
    if rest then exists others, (forall q, In q others <-> In q inside) /\
      let v := norm (strip sp (excl others e)) in (v <> [] /\ ~ In v own /\ texts = own ++ [v]) \/ ((v = [] \/ In v own) /\ texts = own)
    else texts = own.
Definition wild_made (k : str) (multiple pages rest : bool) (subs : options) (e : npath) (ts : list tgt) : Prop :=
  exists sub_lists texts, Forall2 (sub_made sp root e) subs sub_lists /\
    (mixed e -> texts = filter (fun s => negb (streq s [])) [strip sp (raw_text wd (texts_outside root [] e))]) /\
    (~ mixed e -> inner_texts pages rest e texts) /\
    match texts with
    | [] => ts = []
    | _ => exists v, ts = [mkTgt k v multiple true false (concat sub_lists)] /\ is_value texts v
    end.
End Spec.
(** name, [match-multiple], first and last page put together, with the text left over *)
Definition wild_fields : list (string * bool * bool * bool) :=
  [("author", true, false, false); ("author_aff", true, false, true); ("reference", false, true, false)]%string.

(* ---------------------------------------------------------------- *)
(** ** Texts beside elements *)
Section Mixed.
Variable sp : N -> bool.
Definition mixed_in (x : xml) : Prop :=
  exists r n a t cs tl, xml_at x r = Some (Elem n a t cs tl) /\ (r = [] \/ cs <> []) /\ (not_blank sp t \/ exists c, In c cs /\ not_blank sp (xtail c)).
Lemma blank_not s : Base.blank sp s = false <-> not_blank sp s.
Proof.
  unfold Base.blank, not_blank. induction s as [|c s IH]; cbn [forallb]; [split; [discriminate|intros (c & [] & _)]|]. rewrite andb_false_iff, IH. split.
  - intros [H|(d & Hd & H)]; [exists c; split; [now left|exact H]|exists d; split; [now right|exact H]].
  - intros (d & [<-|Hd] & H); [now left|right; now exists d].
Qed.
Lemma blank_strip s : Base.blank sp s = true -> strip sp s = [].
Proof. apply strip_nil. Qed.
Lemma raw_mixed x : contains_raw_text sp (erase x) = true <-> mixed_in x.
Proof.
  induction x as [n a t cs tl IH|tl] using xml_each.
  - cbn [erase contains_raw_text]. rewrite orb_true_iff, negb_true_iff, blank_not. split.
    + intros [H|H]; [exists [], n, a, t, cs, tl; split; [reflexivity|]; split; [now left|now left]|].
      apply existsb_exists in H as (y & Hy & H). apply in_map_iff in Hy as (c & <- & Hc). apply orb_true_iff in H as [H|H].
      * rewrite negb_true_iff, tail_erase, blank_not in H. exists [], n, a, t, cs, tl. split; [reflexivity|]. split; [now left|]. right. now exists c.
      * apply andb_true_iff in H as [L H]. rewrite Forall_forall in IH. apply (IH c Hc) in H as (r & n' & a' & t' & cs' & tl' & E & D & M).
        destruct (In_nth_error _ _ Hc) as (i & Hi). exists (i :: r), n', a', t', cs', tl'. split; [cbn [xml_at xchildren]; now rewrite Hi|]. split; [|exact M]. right.
        destruct D as [->|D]; [|exact D]. cbn [xml_at] in E. assert (c = Elem n' a' t' cs' tl') as -> by congruence. cbn in L. now destruct cs'.
    + intros (r & n' & a' & t' & cs' & tl' & E & D & M). destruct r as [|i r].
      * cbn in E. injection E as <- <- <- <- <-. destruct M as [M|(c & Hc & M)]; [now left|]. right. apply existsb_exists. exists (erase c). split; [now apply in_map|]. apply orb_true_iff. left. now rewrite negb_true_iff, tail_erase, blank_not.
      * cbn [xml_at xchildren] in E. destruct (nth_error cs i) as [c|] eqn:Hi; [|discriminate]. destruct D as [D|D]; [discriminate|]. right. apply existsb_exists. exists (erase c). split; [apply in_map; now apply nth_error_In with i|]. apply orb_true_iff. right.
        apply andb_true_iff. rewrite Forall_forall in IH. split.
        { destruct c as [cn ca ct cc ctl|ctl]; [|destruct r as [|[|j] r]; discriminate E]. destruct cc as [|c1 cc]; [|reflexivity]. destruct r as [|j r]; cbn in E; [injection E as <- <- <- <- <-; now destruct D|]. now destruct j. }
        apply (IH c); [now apply nth_error_In with i|]. exists r, n', a', t', cs', tl'. split; [exact E|]. split; [now right|exact M].
  - split; [discriminate|]. intros (r & n & a & t & cs & tl' & E & _). destruct r as [|i r]; [discriminate|]. cbn in E. now destruct i.
Qed.
Lemma mixed_at root e x : xml_at root e = Some x -> (mixed sp root e <-> mixed_in x).
Proof.
  intros H. unfold mixed, mixed_in. split; intros (r & n & a & t & cs & tl & E & D); exists r, n, a, t, cs, tl; (split; [|exact D]); rewrite xml_at_app, H in *; exact E.
Qed.
End Mixed.
Lemma below_element x : forall p l, labels_below x p = Some l -> p = [] \/ exists n a t cs tl, xml_at x p = Some (Elem n a t cs tl).
Proof.
  intros p. revert x. induction p as [|i p IH]; intros x l H; [now left|right]. cbn [labels_below] in H. destruct (nth_error (xchildren x) i) as [[n a t cs tl|]|] eqn:E; try discriminate. cbn [xml_at]. rewrite E.
  destruct (labels_below (Elem n a t cs tl) p) as [l'|] eqn:E'; [|discriminate]. destruct (IH _ _ E') as [->|H']; [now exists n, a, t, cs, tl|exact H'].
Qed.
Lemma trail_element root p x : trail root p = Some x -> exists n a t cs tl, xml_at root p = Some (Elem n a t cs tl).
Proof.
  unfold trail. destruct root as [n a t cs tl|]; [|discriminate]. destruct (labels_below _ p) as [l|] eqn:E; [|discriminate]. intros _. destruct (below_element _ _ _ E) as [->|H]; [now exists n, a, t, cs, tl|exact H].
Qed.

(* ---------------------------------------------------------------- *)
(** ** The texts of one element *)
Section Wild.
Variables sp wd dg : N -> bool.
Hypothesis sp_ws4 : forall c, ws4 c = true -> sp c = true.
Variable parse_int : str -> option Z.
Variable show_int : Z -> str.
Variable excl : list npath -> npath -> str.
Variable root : xml.
Variable e : npath.
Variable x : list label.
Hypothesis Hx : trail root e = Some x.
Notation text := (text_at sp root).
Notation pair_source := [[at_xpath ".//fpage"; fixed_text "-"; at_xpath ".//lpage"]].
Lemma innermost_of n l : In (append ".//" n, rel_below [n]) inner_paths -> xpath_at root e (u (append ".//" n)) = Ok l -> innermost root n e (exclude_parents l).
Proof.
  intros Hin H. exists l. pose proof (found_below root _ _ e x l Hin Hx H) as B. split; [exact B|]. split; [destruct B as [S _]; unfold exclude_parents; now apply PropXPath.sorted_filter|].
  intros q. rewrite exclude_spec. split; intros [H1 H2]; (split; [exact H1|]); [intros i Hi; apply H2; now exists i|intros [i Hi]; now apply (H2 i)].
Qed.
Lemma pair_of : exists used pair vals, page_pair sp root e used pair /\ children_concat sp (xpath_at root) (erase root) e pair_source = Ok (vals, used) /\ map (strip sp) vals = pair.
Proof.
  assert (I1 : In (append ".//" "fpage", rel_below ["fpage"%string]) inner_paths) by (unfold inner_paths; rewrite !in_app_iff; do 4 right; left; cbn [map In]; tauto).
  assert (I2 : In (append ".//" "lpage", rel_below ["lpage"%string]) inner_paths) by (unfold inner_paths; rewrite !in_app_iff; do 4 right; left; cbn [map In]; tauto).
  destruct (C115_inner root e x _ _ I1 Hx) as (fs & H1 & _). destruct (C115_inner root e x _ _ I2 Hx) as (ls & H2 & _).
  pose proof (innermost_of _ _ I1 H1) as N1. pose proof (innermost_of _ _ I2 H2) as N2. cbn [append] in H1, H2.
  set (us := match exclude_parents fs, exclude_parents ls with _ :: _, _ :: _ => exclude_parents fs ++ exclude_parents ls | _, _ => [] end).
  set (vs := match exclude_parents fs, exclude_parents ls with _ :: _, _ :: _ => [join_str (u " ") (map text (exclude_parents fs)) ++ u "-" ++ join_str (u " ") (map text (exclude_parents ls))] | _, _ => [] end).
  exists us, (map (strip sp) vs), vs. split; [|split; [|reflexivity]].
  - exists (exclude_parents fs), (exclude_parents ls). split; [exact N1|]. split; [exact N2|]. unfold us, vs. destruct (exclude_parents fs) as [|f fl] eqn:Ef; [right; split; [now left|now split]|]. destruct (exclude_parents ls) as [|g gl] eqn:Eg; [right; split; [now right|now split]|].
    left. split; [discriminate|]. split; [discriminate|]. now split.
  - unfold children_concat. cbn [foldM]. unfold source_list. cbn [source_list_go]. unfold at_xpath, fixed_text. cbn [s_xpath s_value].
    destruct (u ".//fpage") as [|c0 s0] eqn:U1; [discriminate|]. rewrite H1. cbn [bind]. unfold us, vs. destruct (exclude_parents fs) as [|f fl] eqn:Ef; [reflexivity|]. rewrite (map_stripped sp root). cbn [bind].
    destruct (u ".//lpage") as [|c1 s1] eqn:U2; [discriminate|]. rewrite H2. cbn [bind]. destruct (exclude_parents ls) as [|g gl] eqn:Eg; [reflexivity|]. rewrite (map_stripped sp root). cbn [bind source_list_go fst snd app concat]. now rewrite app_nil_r.
Qed.
Lemma blank_inside q n a t cs tl i y : ~ mixed sp root e -> (exists r, q = e ++ r) -> xml_at root q = Some (Elem n a t cs tl) -> nth_error cs i = Some y ->
  truthy_only (strip_all sp (immediate_text (erase root) q)) = [].
Proof.
  intros Hn (r & ->) Hq Hi. unfold immediate_text. rewrite erase_at, Hq. cbn [option_map erase]. unfold truthy_only, strip_all. apply PropTargets.filter_none. intros s Hs. apply in_map_iff in Hs as (s' & <- & Hs).
  assert (B : Base.blank sp s' = true); [|now rewrite (blank_strip _ _ B)]. destruct (Base.blank sp s') eqn:B; [reflexivity|]. exfalso. apply Hn. apply blank_not in B. exists r, n, a, t, cs, tl. split; [exact Hq|]. split; [right; intros ->; now destruct i|].
  assert (S : forall z, In s' (some_text z) -> s' = z) by (intros [|? ?] H; [destruct H|destruct H as [H|[]]; now symmetry]).
  apply in_app_iff in Hs as [Hs|Hs]; [left; now rewrite <- (S _ Hs)|]. right. apply in_flat_map in Hs as (z & Hz & Hs). apply in_map_iff in Hz as (c & <- & Hc). exists c. split; [exact Hc|]. rewrite tail_erase in Hs. now rewrite <- (S _ Hs).
Qed.
Lemma wild_texts f (pages rest : bool) texts st : fc_children f = [wildcard] -> fc_concat f = (if pages then pair_source else []) -> fc_range f = [] -> fc_unmatched f = rest -> (rest = true -> pages = false) -> ~ mixed sp root e ->
  extract_children sp dg parse_int show_int (xpath_at root) excl (erase root) e f = Ok (texts, st) -> inner_texts sp root excl pages rest e texts /\ st = [].
Proof.
  intros Fc Fco Fr Fu Hrp Hn H.
  assert (I : In (".//*"%string, rel_all) inner_paths) by (now left).
  destruct (C115_inner root e x _ _ I Hx) as (inside & H1 & _). pose proof (found_below root _ _ e x inside I Hx H1) as B.
  assert (C : exists used pair vals, (if pages then page_pair sp root e used pair else used = [] /\ pair = []) /\ children_concat sp (xpath_at root) (erase root) e (fc_concat f) = Ok (vals, used) /\ map (strip sp) vals = pair).
  { rewrite Fco. destruct pages; [exact pair_of|]. exists [], [], []. now repeat split. }
  destruct C as (used & pair & vals & Cp & Cc & Cv).
  unfold extract_children in H. rewrite Cc, Fr, Fc, Fu in H. cbn [bind fst snd children_range foldM] in H. unfold all_xpaths in H. cbn [mapM] in H. change wildcard with (u ".//*") in H. rewrite H1 in H. cbn [bind concat] in H. rewrite !app_nil_r in H.
  set (other := filter (fun p => negb (pmem p used)) inside) in *. rewrite (map_stripped sp root) in H. cbn [bind] in H.
  assert (Io : forall q, In q other <-> In q inside /\ ~ In q used) by (intros q; unfold other; rewrite filter_In, negb_true_iff, pmem_false; tauto).
  assert (E0 : flat_map (fun p => truthy_only (strip_all sp (immediate_text (erase root) p))) (filter (fun p => negb (pmem p (exclude_parents other))) other) = []).
  { destruct (not_exclude_those other) as (keep & -> & Hk). clear H. assert (G : forall q, In q (filter keep other) -> truthy_only (strip_all sp (immediate_text (erase root) q)) = []); [|revert G; generalize (filter keep other); clear; intros l G; induction l as [|q l IH]; [reflexivity|]; cbn [flat_map]; rewrite (G q), IH; [reflexivity|intros p Hp; apply G; now right|now left]].
    intros q Hq. apply filter_In in Hq as [Hq Hkq]. apply (Hk q Hq) in Hkq as (i & Hi). apply Io in Hq as [Hq _]. apply Io in Hi as [Hi _]. apply B in Hq as (r & x' & m & Eq & _ & Hq & _). apply B in Hi as (r2 & x2 & m2 & _ & _ & Hi & _).
    destruct (trail_element _ _ _ Hq) as (n & a & t & cs & tl & Ex). destruct (trail_element _ _ _ Hi) as (n2 & a2 & t2 & cs2 & tl2 & Ey). rewrite xml_at_app, Ex in Ey. cbn [xml_at xchildren] in Ey. destruct (nth_error cs i) as [y|] eqn:En; [|discriminate].
    apply (blank_inside q n a t cs tl i y Hn); [now exists r|exact Ex|exact En]. }
  rewrite E0, app_nil_r in H.
  assert (E1 : truthy_only (strip_all sp (map text (exclude_parents other) ++ vals)) = filter (fun s => negb (streq s [])) (map text (exclude_parents other) ++ pair)).
  { unfold truthy_only, strip_all. rewrite nonempty_streq. f_equal. rewrite map_app, Cv. f_equal. rewrite map_map. apply map_ext. intros p. now apply text_strip. }
  rewrite E1 in H. set (own := filter (fun s : str => negb (streq s [])) (map text (exclude_parents other) ++ pair)) in *.
  assert (Fin : forall l, (if rest then exists others, (forall q, In q others <-> In q inside) /\ let v := norm (strip sp (excl others e)) in (v <> [] /\ ~ In v own /\ l = own ++ [v]) \/ ((v = [] \/ In v own) /\ l = own) else l = own) -> inner_texts sp root excl pages rest e l).
  { intros l Hl. exists inside, used, pair, (exclude_parents other). split; [exact B|]. split; [exact Cp|]. split; [unfold exclude_parents, other; destruct B as [S _]; now repeat apply PropXPath.sorted_filter|]. split; [|exact Hl].
    intros q. rewrite exclude_spec, Io. split.
    - intros [[Q1 Q2] Q3]. split; [exact Q1|]. split; [exact Q2|]. intros i Hi. destruct (pmem (q ++ [i]) used) eqn:E; [unfold pmem in E; apply existsb_exists in E as (z & Hz & E); apply peq_spec in E; now rewrite E|]. apply pmem_false in E. exfalso. apply Q3. exists i. now apply Io.
    - intros (Q1 & Q2 & Q3). split; [now split|]. intros [i Hi]. apply Io in Hi as [Hi Hu]. now apply Hu, Q3. }
  destruct rest.
  - rewrite stripped_ok in H. cbn [bind] in H. rewrite (strip_id sp (norm _)) in H by (now apply stripped_clean). injection H as <- <-. split; [|reflexivity]. apply Fin. exists (other ++ used). split.
    + intros q. rewrite in_app_iff, Io. rewrite (Hrp eq_refl) in Cp. destruct Cp as [-> _]. cbn [In]. tauto.
    + cbv zeta. set (v := norm _). destruct (nonempty v) eqn:Ev; cbn [andb].
      * destruct (mem v own) eqn:Em; cbn [negb]; [right; split; [right; now apply mem_In|reflexivity]|]. left. split; [intros ->; discriminate|]. split; [intros Hin; apply mem_In in Hin; congruence|reflexivity].
      * right. split; [left; now destruct v|reflexivity].
  - cbn [bind] in H. injection H as <- <-. split; [now apply Fin|reflexivity].
Qed.
End Wild.

(* ---------------------------------------------------------------- *)
(** ** Fields *)
Lemma conf_raw sp lower compiles parse_int jc jr m k f : field_conf sp lower compiles parse_int jc jr m k = Ok f -> option_of m k ".use-raw-text" = None -> fc_raw f = None.
Proof.
  unfold field_conf. change (opt m k) with (option_of m k). intros H O. rewrite O in H.
  destruct (or_default jc _) as [cc|]; [|discriminate]. cbn [bind] in H. destruct (or_default jr _) as [rr|]; [|discriminate]. cbn [bind] in H.
  destruct (compiled compiles (option_of m k ".regex")) as [re|]; [|discriminate]. cbn [bind] in H.
  destruct (compiled compiles (option_of m k ".extract-regex")) as [ex|]; [|discriminate]. cbn [bind] in H.
  match type of H with bind ?x _ = _ => destruct x as [pr|]; [|discriminate] end. cbn [bind] in H. now injection H as <-.
Qed.
Definition flag_of (o : ostr) : bool := ostreq o (Some (u "true")).
Lemma wild_options k mu pg rs : In (k, mu, pg, rs) wild_fields ->
  (forall s, In s [".regex"; ".extract-regex"; ".require-next"; ".use-raw-text"; ".ignore"]%string -> option_of article (u k) s = None) /\
  parse_xpaths ascii_space (option_of article (u k) ".children") = [wildcard] /\ plain_name (u k) /\ In (u k) (map fst article) /\
  flag_of (option_of article (u k) ".match-multiple") = mu /\ flag_of (option_of article (u k) ".bonding") = true /\ flag_of (option_of article (u k) ".unmatched-parent-text") = rs /\
  or_default read_range (option_of article (u k) ".children.range") = Ok [] /\
  or_default read_concat (option_of article (u k) ".children.concat") = Ok (if pg then [[at_xpath ".//fpage"; fixed_text "-"; at_xpath ".//lpage"]] else []) /\ (rs = true -> pg = false).
Proof.
  intros H. unfold wild_fields in H. cbn [In] in H.
  assert (P : forall k, negb (has ch_dot (u k)) = true -> plain_name (u k)) by (intros k0 H0; apply negb_true_iff in H0; now apply has_false).
  assert (M : forall k, mem (u k) (map fst article) = true -> In (u k) (map fst article)) by (intros k0 H0; now apply mem_In).
  assert (O : forall k, forallb (fun s => match option_of article (u k) s with None => true | _ => false end) [".regex"; ".extract-regex"; ".require-next"; ".use-raw-text"; ".ignore"]%string = true -> forall s, In s [".regex"; ".extract-regex"; ".require-next"; ".use-raw-text"; ".ignore"]%string -> option_of article (u k) s = None).
  { intros k0 H0 s Hs. rewrite forallb_forall in H0. specialize (H0 s Hs). now destruct (option_of article (u k0) s). }
  repeat (destruct H as [H|H]; [injection H as <- <- <- <-; (split; [apply O; vm_compute; reflexivity|]); (split; [vm_compute; reflexivity|]); (split; [apply P; vm_compute; reflexivity|]); (split; [apply M; vm_compute; reflexivity|]);
    do 5 (split; [vm_compute; reflexivity|]); intros E; first [discriminate E|reflexivity]|]). destruct H.
Qed.
Section Fields.
Variable b : libs.
Variable rd : readers.
Variable excl : xml -> list npath -> npath -> str.
Variable root : xml.
Hypothesis Hroot : exists a t cs tl, root = Elem (u "article") a t cs tl.
Hypothesis Husual : usual_texts b rd.
Let sp := lb_sp b.
Let wd := lb_wd b.
Theorem C124_elements : forall m k mu pg rs cond l, In (k, mu, pg, rs) wild_fields -> In (k, cond) field_paths -> reduced_to m (u k) ->
  targets_of b (with_texts rd) [(u "article", m)] (article_doc excl root) = Ok l ->
  exists es ls, StronglySorted comes_before es /\ (forall e, In e es <-> exists x, trail root e = Some x /\ cond x) /\
    Forall2 (wild_made sp wd root (excl root) (u k) mu pg rs (sub_mapping m (u k))) es ls /\
    filter (fun t => streq (tg_name t) (u k)) l = concat ls.
Proof.
  intros m k mu pg rs cond l Hk Hc Hm HT. destruct (wild_options _ _ _ _ Hk) as (Onone & Och & Pk & Ik & Omu & Obo & Oun & Ora & Oco & Hrp).
  destruct (shipped_field b rd excl root Hroot Husual m k cond l Hc Hm Pk Ik HT) as (f & es & ls & Hf & Ses & Ines & HF & Hl). assert (Hsp := proj1 Husual). fold sp in Hsp.
  exists es, (map (map snd) ls). split; [exact Ses|]. split; [exact Ines|]. split; [|exact Hl].
  pose proof (conf_fields _ _ _ _ _ _ _ _ _ Hf) as (_ & Fig & Fch & Fre & Fex & _ & Fmu & Fbo & Fne & Fun & _). destruct (conf_concat _ _ _ _ _ _ _ _ _ Hf) as [Fco Fra].
  assert (K : forall s, starts_with (u ".") (u s) && negb (starts_with (u ".sub.") (u s)) = true -> option_of m (u k) s = option_of article (u k) s) by (intros s Hs; now apply kept_option).
  assert (Fraw : fc_raw f = None). { apply (conf_raw _ _ _ _ _ _ _ _ _ Hf). rewrite K by reflexivity. apply Onone. cbn [In]. tauto. }
  rewrite K, (Onone ".regex"%string) in Fre by (try reflexivity; cbn [In]; tauto). cbn in Fre.
  rewrite K, (Onone ".extract-regex"%string) in Fex by (try reflexivity; cbn [In]; tauto). cbn in Fex.
  rewrite K, (Onone ".ignore"%string) in Fig by (try reflexivity; cbn [In]; tauto). cbn in Fig.
  rewrite K, (Onone ".require-next"%string) in Fne by (try reflexivity; cbn [In]; tauto).
  rewrite K in Fmu, Fbo, Fun by reflexivity.
  rewrite K in Fch by reflexivity. fold sp in Fch. rewrite (xpaths_usual sp _ Hsp), Och in Fch by (intros v; apply article_ascii).
  rewrite K in Fco, Fra by reflexivity.
  assert (Fco' : fc_concat f = if pg then [[at_xpath ".//fpage"; fixed_text "-"; at_xpath ".//lpage"]] else []).
  { change (rd_json_concat (with_texts rd)) with read_concat in Fco. rewrite Oco in Fco. now injection Fco as <-. }
  assert (Fra' : fc_range f = []).
  { change (rd_json_range (with_texts rd)) with read_range in Fra. rewrite Ora in Fra. now injection Fra as <-. }
  clear Fco Fra.
  assert (Fl : forall (y : bool) o v, (y = true <-> o = Some (u "true")) -> flag_of o = v -> y = v).
  { intros y o v [H1 H2] <-. unfold flag_of. destruct (ostreq o (Some (u "true"))) eqn:E.
    - now apply H2, ostreq_true.
    - destruct y; [|reflexivity]. apply ostreq_false in E. now destruct (E (H1 eq_refl)). }
  apply (Fl _ _ _ Fmu) in Omu. apply (Fl _ _ _ Fbo) in Obo. apply (Fl _ _ _ Fun) in Oun. assert (One : fc_next f = false) by (now apply (Fl _ _ _ Fne)).
  clear Fmu Fbo Fun Fne.
  assert (HFe : Forall (fun e => exists x, trail root e = Some x) es) by (apply Forall_forall; intros e He; apply Ines in He as (x & Hx & _); now exists x).
  clear Ses Ines Hl. induction HF as [|e y es ls He HF IH]; cbn [map]; constructor; [|apply IH; now inversion HFe].
  inversion HFe as [|? ? (x & Hx) _]; subst. clear IH HF HFe.
  apply ents_inv in He as (subs & texts & st & Hs & Ht & ->). destruct (subs_made b rd root Husual m k f e x subs Hm Hf Hx Hs) as (lists & L1 & L2).
  exists lists, texts. split; [exact L1|].
  destruct (trail_element _ _ _ Hx) as (xn & xa & xt & xcs & xtl & Ex).
  assert (U : uses_children (lb_sp b) (erase root) f e = true <-> ~ mixed sp root e).
  { unfold uses_children. rewrite Fraw, Fch. rewrite streq_refl. cbn [negb orb]. rewrite erase_at, Ex. cbn [option_map]. rewrite negb_true_iff, (mixed_at sp root e _ Ex), <- raw_mixed. fold sp. destruct (contains_raw_text sp _); split; congruence. }
  assert (T : (mixed sp root e -> texts = filter (fun s => negb (streq s [])) [strip sp (raw_text wd (texts_outside root [] e))]) /\ (~ mixed sp root e -> inner_texts sp root (excl root) pg (fc_unmatched f) e texts) /\ st = []).
  { destruct (uses_children (lb_sp b) (erase root) f e) eqn:Eu.
    - assert (Hn := proj1 U eq_refl). destruct (wild_texts sp (lb_dg b) (space_ws4 _ Hsp) (lb_int b) (rd_show_int (with_texts rd)) (excl root) root e x Hx f pg (fc_unmatched f) texts st Fch Fco' Fra' eq_refl Hrp Hn Ht) as [T1 T2].
      split; [intros Hy; contradiction|]. split; [now intros _|exact T2].
    - destruct Ht as (ex & Hex & -> & ->). rewrite Fig in Hex. destruct Hex as (ls0 & Hls & ->). inversion Hls; subst. cbn [concat].
      split; [|split; [intros Hy; apply U in Hy; discriminate|reflexivity]]. intros _. unfold truthy_only, strip_all. cbn [map]. rewrite nonempty_streq. fold sp wd. rewrite raw_outside; [reflexivity|intros q []]. }
  destruct T as (T1 & T2 & ->). split; [exact T1|]. split; [exact T2|].
  unfold with_pattern, with_extract. rewrite Fre, Fex, Obo, One. cbn [indexed length seq map combine]. rewrite app_nil_r. rewrite L2.
  destruct (text_value texts) as [v|] eqn:Ev; cbn [map snd].
  - destruct texts as [|t0 tl0]; [discriminate|]. exists v. split; [reflexivity|]. now apply value_is.
  - destruct texts as [|t0 tl0]; [reflexivity|]. now destruct tl0.
Qed.
End Fields.
(** ... as made by the commands *)
Theorem C124_command : forall b rd excl root cmd o k mu pg rs cond l,
  (exists a t cs tl, root = Elem (u "article") a t cs tl) -> usual_texts b rd -> o_overrides o = [] ->
  In (k, mu, pg, rs) wild_fields -> In (k, cond) field_paths -> o_fields o = [] \/ In (u k) (o_fields o) ->
  targets_of b (with_texts rd) (fst (command_fields cmd [(u "article", article)] o)) (article_doc excl root) = Ok l ->
  exists m es ls, reduced_to m (u k) /\ fst (command_fields cmd [(u "article", article)] o) = [(u "article", m)] /\
    StronglySorted comes_before es /\ (forall e, In e es <-> exists x, trail root e = Some x /\ cond x) /\
    Forall2 (wild_made (lb_sp b) (lb_wd b) root (excl root) (u k) mu pg rs (sub_mapping m (u k))) es ls /\
    filter (fun t => streq (tg_name t) (u k)) l = concat ls.
Proof.
  intros b rd excl root cmd o k mu pg rs cond l Hroot Hu Ho Hk Hc Hf HT. destruct (wild_options _ _ _ _ Hk) as (_ & _ & Pk & _).
  destruct (command_reduced cmd o k Pk Ho Hf) as (m & Hm & Em). rewrite Em in HT. destruct (C124_elements b rd excl root Hroot Hu m k mu pg rs cond l Hk Hc Hm HT) as (es & ls & H1 & H2 & H3 & H4).
  exists m, es, ls. exact (conj Hm (conj Em (conj H1 (conj H2 (conj H3 H4))))).
Qed.

(* ---------------------------------------------------------------- *)
(** ** Examples *)
Definition wild_article (refs : list xml) : xml :=
  el "article" [el "front" [el "article-meta" [el "contrib-group" [
      el "contrib" [el "name" [tx "surname" " Stone"; el "given-names" [tx "initials" "A."; tx "initials" "B."]]];
      el "contrib" [Elem (u "name") [] [] [tx "surname" "Tree"; Elem (u "given-names") [] (u "Carl") [] (u ",")] []];
      el "contrib" [el "name" [tx "surname" " "]]];
      Elem (u "aff") [] (u " ") [tx "label" "1"; tx "institution" "A house"] []]];
    el "back" [el "ref-list" refs]].
Definition wild_targets (refs : list xml) : res (list tgt) :=
  targets_of real_libs (with_texts ship_readers) [(u "article", article)] (article_doc (fun _ _ _ => u " rest ") (wild_article refs)).
Example C124_ex_authors : named "author" (wild_targets []) = Ok [VMany [u "Stone"; u "A."; u "B."]; VOne (u "Tree Carl,")].
Proof. vm_compute. reflexivity. Qed.
(** [rest] stands for the text that [get_text_content] finds outside the elements *)
Example C124_ex_aff : named "author_aff" (wild_targets []) = Ok [VMany [u "A house"; u "rest"; u "1"]].
Proof. vm_compute. reflexivity. Qed.
Example C124_ex_reference : named "reference" (wild_targets [el "ref" [tx "label" "3"; el "element-citation" [tx "fpage" "7"; tx "year" "1999"; tx "lpage" "9"]]]) = Ok [VMany [u "1999"; u "7-9"; u "3"]] /\
  named "reference" (wild_targets [el "ref" [el "element-citation" [tx "fpage" "7"; tx "year" "1999"]]]) = Ok [VMany [u "1999"; u "7"]].
Proof. split; vm_compute; reflexivity. Qed.
(** an element with nothing but the two pages gives them a second time, without the hyphen *)
Example C124_ex_twice : named "reference" (wild_targets [el "ref" [el "page-range" [tx "fpage" "7"; tx "lpage" "9"]]]) = Ok [VMany [u "7-9"; u "79"]].
Proof. vm_compute. reflexivity. Qed.
Example C124_ex_mixed : mixed ascii_space (wild_article []) [0; 0; 0; 1; 0] /\ ~ mixed ascii_space (wild_article []) [0; 0; 0; 0; 0].
Proof.
  split; [apply (proj2 (mixed_at ascii_space (wild_article []) [0; 0; 0; 1; 0] _ eq_refl)), raw_mixed; vm_compute; reflexivity|].
  intros H. apply (proj1 (mixed_at ascii_space (wild_article []) [0; 0; 0; 0; 0] _ eq_refl)), raw_mixed in H. vm_compute in H. discriminate.
Qed.
Example C124_ex_meets : reduced_to article (u "author") /\ (exists a t cs tl, wild_article [] = Elem (u "article") a t cs tl) /\ usual_texts real_libs ship_readers /\ (exists l, wild_targets [] = Ok l) /\
  In ("author"%string, true, false, false) wild_fields /\ exists c, In ("author"%string, c) field_paths.
Proof.
  split; [exists (fun _ => true); split; [|reflexivity]; symmetry; now apply PropTargets.filter_every|]. split; [now repeat eexists|]. split; [exact (proj1 C118_ex_texts)|]. split; [eexists; vm_compute; reflexivity|]. split; [now left|].
  eexists. unfold field_paths. do 10 right. now left.
Qed.
Print Assumptions C124_elements.
Print Assumptions C124_command.
