(** C119: the labels and captions of figures, tables and boxes, and the titles of sections: which
    target annotations the mapping of the repository makes of any article. *)
From Coq Require Import Permutation Sorted.
From Verif Require Import Base ModelTags ModelXml ModelClusters PropClusters ModelMapping PropMapping ModelTarget ModelFuzzyMatch ModelJoined ModelWordMatch PropTarget ModelTargets PropTargets ModelAnnotators ModelCommands ModelRuns PropNames PropIni
  ModelJatsText ModelXPath PropXPath PropShipped PropShippedPaths ModelPrefixes ModelJson PropJson PropShippedReads PropSaves PropTotal.
Require Import Lia.
Import ListNotations.
Open Scope list_scope.
Open Scope nat_scope.

(* ---------------------------------------------------------------- *)
(** ** Specification *)
(** the child elements of the node at [e] whose name is one of [l], in their order *)
Definition children_called (l : list str) (root : xml) (e : npath) : list npath :=
  match xml_at root e with
  | Some x => map (fun i => e ++ [i])
                (filter (fun i => match nth_error (xchildren x) i with Some (Elem n _ _ _ _) => mem n l | _ => false end)
                   (seq 0 (length (xchildren x))))
  | None => []
  end.
(** fields of an element with a label and something else: the name of that, and the names of the
    children whose texts are used if one of the two is missing *)
Definition labelled_fields : list (string * (string * list string)) :=
  ("section_title", ("title", ["title"]))%string ::
  map (fun f => (f, ("caption", ["label"; "caption"])))%string
    ["boxed_text_title"; "figure"; "body_figure"; "back_figure"; "table"; "body_table"; "back_table"]%string.
Section Spec.
Variable sp : N -> bool.
Variable root : xml.
(** the text of an element, with white space as usual (C35) *)
Definition text_at (p : npath) : str := norm (strip sp (concat (match node_at (erase root) p with Some n => itertext n | None => [] end))).
Definition texts_of (l : list string) (e : npath) : list str := map text_at (children_called (map u l) root e).
(** [Label. Caption], or what there is of it *)
Definition labelled_texts (second : string) (own : list string) (e : npath) : list str :=
  filter (fun s => negb (streq s []))
    (match texts_of ["label"]%string e, texts_of [second] e with
     | (_ :: _) as ls, (_ :: _) as cs => [strip sp (join_str (u " ") ls ++ u " " ++ join_str (u " ") cs)]
     | _, _ => texts_of own e
     end).
Definition is_value (texts : list str) (v : tvalue) : Prop :=
  match v with VOne s => texts = [s] | VMany l => Permutation l texts /\ 2 <= length l end.
(** the sub annotations: the child elements that their expressions [./name] name *)
Definition sub_texts_at (subs : options) (e : npath) : list (str * tvalue) :=
  flat_map (fun s => map (fun t => (fst s, VOne t)) (filter (fun t => negb (streq t [])) (map text_at (children_called [skipn 2 (snd s)] root e)))) subs.
(** the annotations for one element: none if there is no text, else one *)
Definition labelled (k : str) (second : string) (own : list string) (subs : options) (e : npath) (ts : list tgt) : Prop :=
  match labelled_texts second own e with
  | [] => ts = []
  | texts => exists v, ts = [mkTgt k v false false false (sub_texts_at subs e)] /\ is_value texts v
  end.
End Spec.
(** the mapping of the repository without some options, but with those of the field [k] (other than
    sub fields) *)
Definition reduced_to (m : options) (k : str) : Prop :=
  exists keep, m = filter (fun kv => keep (fst kv)) article /\ forall key, belongs key k -> (forall r, key <> k ++ u ".sub." ++ r) -> keep key = true.

(* ---------------------------------------------------------------- *)
(** ** Proofs *)
Lemma sorted_unique l : forall l', StronglySorted comes_before l -> StronglySorted comes_before l' -> (forall q, In q l <-> In q l') -> l = l'.
Proof.
  induction l as [|x l IH]; intros l' H H' E.
  - destruct l' as [|y l']; [reflexivity|]. exfalso. exact (proj2 (E y) (or_introl eq_refl)).
  - destruct l' as [|y l']; [exfalso; exact (proj1 (E x) (or_introl eq_refl))|].
    inversion H as [|? ? Hs Hx]; inversion H' as [|? ? Hs' Hy]; subst. rewrite Forall_forall in Hx, Hy.
    assert (x = y) as <-.
    { destruct (proj1 (E x) (or_introl eq_refl)) as [->|H1]; [reflexivity|]. destruct (proj2 (E y) (or_introl eq_refl)) as [->|H2]; [reflexivity|].
      exfalso. exact (before_asym _ _ (Hx _ H2) (Hy _ H1)). }
    f_equal. apply IH; try assumption. intros q. split; intros Hq.
    + destruct (proj1 (E q) (or_intror Hq)) as [->|H1]; [exfalso; exact (before_irrefl _ (Hx _ Hq))|exact H1].
    + destruct (proj2 (E q) (or_intror Hq)) as [->|H1]; [exfalso; exact (before_irrefl _ (Hy _ Hq))|exact H1].
Qed.
Lemma called_sorted l root e : StronglySorted comes_before (children_called l root e).
Proof.
  unfold children_called. destruct (xml_at root e) as [x|]; [|constructor].
  assert (S : forall n s, StronglySorted lt (seq s n)).
  { induction n as [|n IH]; intros s; cbn [seq]; constructor; [apply IH|]. apply Forall_forall. intros y Hy. apply in_seq in Hy. lia. }
  generalize (S (length (xchildren x)) 0). generalize (seq 0 (length (xchildren x))). intros is H. induction H as [|i is H IH F]; [constructor|]. cbn [filter].
  match goal with |- context [if ?c then _ else _] => destruct c end; [|exact IH]. cbn [map]. constructor; [exact IH|]. apply Forall_forall. intros q Hq. apply in_map_iff in Hq as (j & <- & Hj).
  apply filter_In in Hj as [Hj _]. rewrite Forall_forall in F. right. exists e, i, j, [], []. repeat split. now apply F.
Qed.
Lemma called_in l root e q : In q (children_called l root e) <-> exists x i n a t cs tl, xml_at root e = Some x /\ q = e ++ [i] /\ nth_error (xchildren x) i = Some (Elem n a t cs tl) /\ In n l.
Proof.
  unfold children_called. destruct (xml_at root e) as [x|].
  - rewrite in_map_iff. setoid_rewrite filter_In. split.
    + intros (i & <- & _ & H). destruct (nth_error _ i) as [[n a t cs tl|]|] eqn:E; try discriminate. apply mem_In in H. now exists x, i, n, a, t, cs, tl.
    + intros (x' & i & n & a & t & cs & tl & [= <-] & -> & E & H). exists i. split; [reflexivity|]. split; [apply in_seq; assert (nth_error (xchildren x) i <> None) as N by (rewrite E; discriminate); apply nth_error_Some in N; lia|].
      rewrite E. now apply mem_In.
  - split; [intros []|]. now intros (x & i & n & a & t & cs & tl & H & _).
Qed.
(** an element below the element at [e] *)
Lemma trail_below root e b q m : trail root e = Some b -> (exists r, q = e ++ r /\ trail root q = Some (b ++ m)) ->
  forall k a, m = [(k, a)] -> exists x i t cs tl, xml_at root e = Some x /\ q = e ++ [i] /\ nth_error (xchildren x) i = Some (Elem k a t cs tl).
Proof.
  intros Hb (r & -> & Hq) k a ->. unfold trail in *. destruct root as [n0 a0 t0 cs0 tl0|]; [|discriminate]. set (root := Elem n0 a0 t0 cs0 tl0) in *.
  destruct (labels_below root e) as [b'|] eqn:E; [|discriminate]. injection Hb as <-. rewrite below_app, E in Hq. destruct (xml_at root e) as [x|] eqn:Ex; [|discriminate].
  destruct (labels_below x r) as [m|] eqn:Er; [|discriminate]. cbn in Hq. injection Hq as Hq. apply app_inv_head in Hq. subst m.
  pose proof (below_length _ _ _ Er) as L. destruct r as [|i [|j r]]; try discriminate. cbn in Er.
  destruct (nth_error (xchildren x) i) as [[n a' t cs tl|]|] eqn:En; try discriminate. injection Er as -> ->. now exists x, i, t, cs, tl.
Qed.
Lemma trail_child root e b x i k a t cs tl : trail root e = Some b -> xml_at root e = Some x -> nth_error (xchildren x) i = Some (Elem k a t cs tl) -> trail root (e ++ [i]) = Some (b ++ [(k, a)]).
Proof.
  unfold trail. destruct root as [n0 a0 t0 cs0 tl0|]; [|discriminate]. set (root := Elem n0 a0 t0 cs0 tl0). destruct (labels_below root e) as [b'|] eqn:E; [|discriminate]. intros [= <-] Ex En.
  rewrite below_app, E, Ex. cbn [labels_below]. rewrite En. reflexivity.
Qed.
Lemma found_called root e b s c l : In (s, c) inner_paths -> trail root e = Some b -> (forall m, c b m <-> exists k a, m = [(k, a)] /\ In k l) ->
  xpath_at root e (u s) = Ok (children_called l root e).
Proof.
  intros Hin Hb C. destruct (C115_inner root e b s c Hin Hb) as (r & E & _ & H). rewrite E. f_equal. apply sorted_unique; [|apply called_sorted|].
  - unfold xpath_at in E. destruct (parse_xpath (u s)) as [x|]; [|discriminate]. injection E as <-. apply C114_order.
  - intros q. rewrite H, called_in. split.
    + intros (r' & m & -> & T & Hm). apply C in Hm as (k & a & -> & Hk). destruct (trail_below root e b (e ++ r') _ Hb (ex_intro _ r' (conj eq_refl T)) k a eq_refl) as (x & i & t & cs & tl & Hx & Hi & Hn).
      now exists x, i, k, a, t, cs, tl.
    + intros (x & i & k & a & t & cs & tl & Hx & -> & Hn & Hk). exists [i], [(k, a)]. split; [reflexivity|]. split; [exact (trail_child _ _ _ _ _ _ _ _ _ _ Hb Hx Hn)|]. apply C. now exists k, a.
Qed.
Lemma rel_path_one n b m : rel_path [n] b m <-> exists k a, m = [(k, a)] /\ In k [u n].
Proof.
  unfold rel_path. split.
  - destruct m as [|[k a] [|? ?]]; try discriminate. intros [= ->]. exists (u n), a. split; [reflexivity|now left].
  - intros (k & a & -> & [<-|[]]). reflexivity.
Qed.
Lemma exclude_children e l : (forall q, In q l -> exists i, q = e ++ [i]) -> exclude_parents l = l.
Proof.
  intros H. unfold exclude_parents. apply PropTargets.filter_every. intros q Hq. apply negb_true_iff. destruct (pmem q _) eqn:E; [|reflexivity]. exfalso.
  unfold pmem in E. apply existsb_exists in E as (p & Hp & E). apply peq_spec in E. subst p. apply in_flat_map in Hp as (r & Hr & Hp). destruct (H r Hr) as (i & ->). destruct (H q Hq) as (j & ->).
  unfold parent in Hp. destruct (e ++ [i]) eqn:En; [now destruct e|]. rewrite <- En in Hp. rewrite removelast_last in Hp. destruct Hp as [Hp|[]]. apply (f_equal (@length nat)) in Hp. rewrite app_length in Hp. cbn in Hp. lia.
Qed.
Lemma called_below l root e q : In q (children_called l root e) -> exists i, q = e ++ [i].
Proof. intros H. apply called_in in H as (x & i & n & a & t & cs & tl & _ & -> & _). now exists i. Qed.
Lemma called_incl l l' root e : (forall n, In n l -> In n l') -> forall q, In q (children_called l root e) -> In q (children_called l' root e).
Proof. intros I q. rewrite !called_in. intros (x & i & n & a & t & cs & tl & H1 & H2 & H3 & H4). exists x, i, n, a, t, cs, tl. repeat split; try assumption. now apply I. Qed.
Lemma mapM_ok {A B} (f : A -> res B) (g : A -> B) l : (forall x, f x = Ok (g x)) -> mapM f l = Ok (map g l).
Proof. intros H. induction l as [|x l IH]; [reflexivity|]. cbn [mapM map]. now rewrite H, IH. Qed.
Section Extract.
Variables sp dg : N -> bool.
Hypothesis sp_ws4 : forall c, ws4 c = true -> sp c = true.
Variable parse_int : str -> option Z.
Variable show_int : Z -> str.
Variable excl : list npath -> npath -> str.
Variable root : xml.
Variables (e : npath) (f : fconf) (second : string) (own : list string) (x1 x2 : string) (cx : str).
Hypothesis H1 : xpath_at root e (u x1) = Ok (children_called [u "label"] root e).
Hypothesis H2 : xpath_at root e (u x2) = Ok (children_called [u second] root e).
Hypothesis Hc : xpath_at root e cx = Ok (children_called (map u own) root e).
Hypothesis Hown : forall n, In n (map u own) -> n = u "label" \/ n = u second.
Hypothesis N1 : u x1 <> [].
Hypothesis N2 : u x2 <> [].
Lemma text_stripped p : stripped sp (content (erase root) p) = Ok (text_at sp root p).
Proof. rewrite stripped_ok. f_equal. unfold text_at, content. destruct (node_at (erase root) p); reflexivity. Qed.
Lemma text_strip p : strip sp (text_at sp root p) = text_at sp root p.
Proof. apply strip_id. unfold text_at. now apply stripped_clean. Qed.
Lemma concat_texts : children_concat sp (xpath_at root) (erase root) e [[at_xpath x1; fixed_text " "; at_xpath x2]] =
  Ok (match texts_of sp root ["label"]%string e, texts_of sp root [second] e with
      | (_ :: _) as ls, (_ :: _) as cs => ([join_str (u " ") ls ++ u " " ++ join_str (u " ") cs], children_called [u "label"] root e ++ children_called [u second] root e)
      | _, _ => ([], [])
      end).
Proof.
  unfold children_concat. cbn [foldM]. unfold source_list, texts_of. cbn [map].
  assert (E1 : forall l, exclude_parents (children_called l root e) = children_called l root e) by (intros l; apply (exclude_children e); apply called_below).
  assert (T : forall l, mapM (fun p => stripped sp (content (erase root) p)) l = Ok (map (text_at sp root) l)) by (intros l; apply mapM_ok, text_stripped).
  cbn [source_list_go]. unfold at_xpath at 1. cbn [s_xpath]. destruct (u x1) as [|c1 s1] eqn:U1; [easy|]. rewrite H1. cbn [bind]. rewrite E1.
  destruct (children_called [u "label"] root e) as [|p1 l1] eqn:C1; [reflexivity|]. rewrite T. cbn [bind].
  unfold fixed_text. cbn [source_list_go s_xpath s_value]. unfold at_xpath. cbn [s_xpath]. destruct (u x2) as [|c2 s2] eqn:U2; [easy|]. rewrite H2. cbn [bind]. rewrite E1.
  destruct (children_called [u second] root e) as [|p2 l2] eqn:C2; [reflexivity|]. rewrite T. cbn [bind source_list_go fst snd].
  cbn [app map concat]. rewrite app_nil_r. reflexivity.
Qed.
Hypothesis Fconcat : fc_concat f = [[at_xpath x1; fixed_text " "; at_xpath x2]].
Hypothesis Frange : fc_range f = [].
Hypothesis Fchildren : fc_children f = [cx].
Hypothesis Funmatched : fc_unmatched f = false.
Lemma nonempty_streq (l : list str) : filter nonempty l = filter (fun s => negb (streq s [])) l.
Proof. induction l as [|[|c s] l IH]; cbn; [reflexivity|exact IH|now rewrite IH]. Qed.
Lemma labelled_children : extract_children sp dg parse_int show_int (xpath_at root) excl (erase root) e f = Ok (labelled_texts sp root second own e, []).
Proof.
  unfold extract_children. rewrite Fconcat, Frange, Fchildren, Funmatched, concat_texts. cbn [bind children_range foldM]. unfold all_xpaths. cbn [mapM]. rewrite Hc. cbn [bind concat]. rewrite (app_nil_r (children_called (map u own) root e)).
  assert (E1 : forall l, exclude_parents (children_called l root e) = children_called l root e) by (intros l; apply (exclude_children e); apply called_below).
  assert (T : forall l, mapM (fun p => stripped sp (content (erase root) p)) l = Ok (map (text_at sp root) l)) by (intros l; apply mapM_ok, text_stripped).
  unfold labelled_texts. rewrite <- nonempty_streq.
  assert (Rest : forall l, filter (fun p => negb (pmem p (children_called l root e))) (children_called l root e) = []).
  { intros l. apply PropTargets.filter_none. intros q Hq. apply negb_false_iff. unfold pmem. apply existsb_exists. exists q. split; [exact Hq|now apply peq_spec]. }
  assert (Texts : forall l, strip_all sp (map (text_at sp root) l) = map (text_at sp root) l).
  { intros l. unfold strip_all. rewrite map_map. apply map_ext. intros p. apply text_strip. }
  assert (Missing : forall c : list str * list npath, c = ([], []) ->
    (do texts <- mapM (fun p => stripped sp (content (erase root) p)) (exclude_parents (filter (fun p => negb (pmem p (snd c ++ []))) (children_called (map u own) root e))) ;;
     Ok (truthy_only (strip_all sp (texts ++ fst c ++ [])) ++ flat_map (fun p => truthy_only (strip_all sp (immediate_text (erase root) p)))
          (filter (fun p => negb (pmem p (exclude_parents (filter (fun p => negb (pmem p (snd c ++ []))) (children_called (map u own) root e))))) (filter (fun p => negb (pmem p (snd c ++ []))) (children_called (map u own) root e))), @nil str)) =
    Ok (filter nonempty (texts_of sp root own e), [])).
  { intros c ->. cbn [fst snd app]. rewrite (PropTargets.filter_every (fun p => negb (pmem p [])) _ (fun x _ => eq_refl)), E1, Rest, T. cbn [bind flat_map]. rewrite !app_nil_r, Texts. reflexivity. }
  destruct (texts_of sp root ["label"]%string e) as [|t1 l1] eqn:X1; [exact (Missing ([], []) eq_refl)|].
  destruct (texts_of sp root [second] e) as [|t2 l2] eqn:X2; [exact (Missing ([], []) eq_refl)|].
  cbn [bind fst snd]. rewrite app_nil_r.
      assert (E : filter (fun p => negb (pmem p (children_called [u "label"] root e ++ children_called [u second] root e))) (children_called (map u own) root e) = []).
      { apply PropTargets.filter_none. intros q Hq. apply negb_false_iff. unfold pmem. apply existsb_exists. exists q. split; [|now apply peq_spec]. apply in_app_iff.
        apply called_in in Hq as (x & i & n & a & t & cs & tl & P1 & P2 & P3 & P4). destruct (Hown n P4) as [-> | ->]; [left|right]; apply called_in; exists x, i; eexists; exists a, t, cs, tl; (split; [exact P1|]; split; [exact P2|]; split; [exact P3|now left]). }
      rewrite E. cbn [exclude_parents filter flat_map mapM bind app]. rewrite app_nil_r. reflexivity.
Qed.
End Extract.
(* ---------------------------------------------------------------- *)
(** ** The annotations of a field follow the order of their elements *)
Lemma sorted_same {A} (R : A -> A -> Prop) l : forall l', (forall a b, In a l -> In b l -> R a b -> R b a -> a = b) -> StronglySorted R l -> StronglySorted R l' -> Permutation l l' -> l = l'.
Proof.
  induction l as [|x l IH]; intros l' D S S' P.
  - apply Permutation_nil in P. now subst.
  - destruct l' as [|y l']; [apply Permutation_sym, Permutation_nil in P; discriminate|]. inversion S as [|? ? S1 F1]; inversion S' as [|? ? S2 F2]; subst. rewrite Forall_forall in F1, F2.
    assert (x = y) as <-.
    { pose proof (Permutation_in x P (or_introl eq_refl)) as [->|H1]; [reflexivity|]. pose proof (Permutation_in y (Permutation_sym P) (or_introl eq_refl)) as [->|H2]; [reflexivity|].
      apply D; [now left|now right|now apply F1|now apply F2]. }
    f_equal. apply IH; try assumption; [intros a b Ha Hb; apply D; now right|]. now apply Permutation_cons_inv in P.
Qed.
Lemma filter_sorted {A} (R : A -> A -> Prop) (f : A -> bool) l : StronglySorted R l -> StronglySorted R (filter f l).
Proof.
  induction 1 as [|x l S IH F]; [constructor|]. cbn [filter]. destruct (f x); [|exact IH]. constructor; [exact IH|]. rewrite Forall_forall in *. intros y Hy. apply filter_In in Hy. now apply F.
Qed.
Lemma filter_of_map {A B} (g : A -> B) (f : B -> bool) l : filter f (map g l) = map g (filter (fun x => f (g x)) l).
Proof. induction l as [|x l IH]; [reflexivity|]. cbn [map filter]. rewrite IH. now destruct (f (g x)). Qed.
Lemma sorted_app {A} (R : A -> A -> Prop) l l' : StronglySorted R l -> StronglySorted R l' -> (forall x y, In x l -> In y l' -> R x y) -> StronglySorted R (l ++ l').
Proof.
  induction 1 as [|x l S IH F]; intros S' H; [exact S'|]. cbn. constructor; [apply IH; [exact S'|intros; apply H; [now right|assumption]]|]. rewrite Forall_forall in *. intros y Hy. apply in_app_or in Hy as [Hy|Hy]; [now apply F|apply H; [now left|exact Hy]].
Qed.
Lemma F2_perm {A B} (R : A -> B -> Prop) l m : Permutation l m -> forall l', Forall2 R l l' -> exists m', Forall2 R m m' /\ Permutation l' m'.
Proof.
  induction 1 as [|x l m P IH|x y l|l m n P1 IH1 P2 IH2]; intros l' H.
  - exists l'. inversion H; subst. now split.
  - inversion H as [|? y ? l1 Hx Hl]; subst. destruct (IH _ Hl) as (m' & H1 & H2). exists (y :: m'). split; [now constructor|now constructor].
  - inversion H as [|? a ? l1 Hx Hl]; subst. inversion Hl as [|? b ? l2 Hy Hl2]; subst. exists (b :: a :: l2). split; [now repeat constructor|]. constructor.
  - destruct (IH1 _ H) as (m' & H1 & H2). destruct (IH2 _ H1) as (n' & H3 & H4). exists n'. split; [exact H3|]. now transitivity m'.
Qed.
Lemma perm_concat {A} (l l' : list (list A)) : Permutation l l' -> Permutation (concat l) (concat l').
Proof.
  induction 1 as [|x l l' P IH|x y l|l m n P1 IH1 P2 IH2]; cbn [concat]; [constructor|now apply Permutation_app_head| |now transitivity (concat m)].
  rewrite !app_assoc. apply Permutation_app_tail, Permutation_app_comm.
Qed.
Section Order.
Variables sp wd dg : N -> bool.
Variable lower : str -> str.
Variable compiles : str -> bool.
Variable parse_int : str -> option Z.
Variable show_int : Z -> str.
Variable json_concat : str -> res (list (list source)).
Variable json_range : str -> res (list range_item).
Variable re_group : str -> str -> option ostr.
Variable re_spans : str -> str -> list (Z * Z).
Variable xpath : npath -> str -> res (list npath).
Variable content_excluding : list npath -> npath -> str.
Variable root : node.
Let conf := field_conf sp lower compiles parse_int json_concat json_range.
Let ents := tgt_entries sp wd dg compiles parse_int show_int re_group re_spans xpath content_excluding root.
Let T := xml_targets sp wd dg lower compiles parse_int show_int json_concat json_range re_group re_spans xpath content_excluding root.
Let leb (a b : key * tgt) : Prop := key_leb (fst a) (fst b) = true.
Let pos (e : npath) : nat := index_of e (paths_from [] root).
(** the keys of the entries of an element *)
Lemma ents_keys k f e x y : ents k f e = Ok x -> In y x -> exists i, fst y = ((- fc_priority f)%Z, Z.of_nat (pos e), i).
Proof.
  intros H Hy. apply ents_inv in H as (subs & texts & st & _ & _ & ->). apply in_app_or in Hy as [Hy|Hy].
  - destruct (text_value _); [|destruct Hy]. destruct Hy as [<-|[]]. now exists None.
  - apply in_map_iff in Hy as (iv & <- & _). now exists (Some (fst iv)).
Qed.
Lemma indexed_sorted {A} (l : list A) : StronglySorted (fun a b : Z * A => (fst a < fst b)%Z) (indexed l).
Proof.
  unfold indexed. assert (G : forall (l : list A) s, StronglySorted (fun a b : Z * A => (fst a < fst b)%Z) (combine (map Z.of_nat (seq s (length l))) l)).
  { clear. induction l as [|x l IH]; intros s; cbn [length seq map combine]; constructor; [apply IH|]. apply Forall_forall. intros [z y] Hy. apply in_combine_l in Hy. apply in_map_iff in Hy as (n & <- & Hn). apply in_seq in Hn. cbn. lia. }
  apply G.
Qed.
Lemma ents_sorted k f e x : ents k f e = Ok x -> StronglySorted (fun a b => leb a b /\ key_leb (fst b) (fst a) = false) x.
Proof.
  intros H. apply ents_inv in H as (subs & texts & st & _ & _ & ->). apply sorted_app.
  - destruct (text_value _); repeat constructor.
  - pose proof (indexed_sorted st) as S. induction S as [|a l S IH F]; cbn [map]; constructor; [exact IH|]. rewrite Forall_forall in *. intros y Hy. apply in_map_iff in Hy as (b & <- & Hb). specialize (F b Hb).
    unfold leb, key_leb, optz_leb. cbn [fst]. rewrite !Z.ltb_irrefl, !Z.eqb_refl. cbn. split; lia.
  - intros a c Ha Hc. destruct (text_value _); [|destruct Ha]. destruct Ha as [<-|[]]. apply in_map_iff in Hc as (b & <- & _). unfold leb, key_leb, optz_leb. cbn [fst]. rewrite !Z.ltb_irrefl, !Z.eqb_refl. now cbn.
Qed.
Lemma all_sorted k f es : StronglySorted comes_before es -> (forall e, In e es -> node_at root e <> None) -> forall ls, Forall2 (fun e x => ents k f e = Ok x) es ls ->
  StronglySorted (fun a b => leb a b /\ key_leb (fst b) (fst a) = false) (concat ls).
Proof.
  intros S. induction S as [|e es S IH F]; intros N ls H; inversion H as [|? x ? ls' H1 H2]; subst; cbn [concat]; [constructor|]. apply sorted_app.
  - exact (ents_sorted _ _ _ _ H1).
  - apply IH; [intros; apply N; now right|exact H2].
  - intros a c Ha Hc. apply in_concat in Hc as (y & Hy & Hc). destruct (F2_in_r _ _ _ H2 y Hy) as (e' & He' & E'). destruct (ents_keys _ _ _ _ _ H1 Ha) as (i & K1). destruct (ents_keys _ _ _ _ _ E' Hc) as (j & K2).
    rewrite Forall_forall in F. specialize (F e' He'). apply (C88_positions root) in F; [|apply N; now left|apply N; now right]. fold (pos e) in F. fold (pos e') in F.
    unfold leb, key_leb. rewrite K1, K2, !Z.ltb_irrefl, !Z.eqb_refl. cbn [orb andb]. split; [apply orb_true_iff; left; lia|]. rewrite (proj2 (Z.ltb_ge _ _)) by lia. rewrite (proj2 (Z.eqb_neq _ _)) by lia. reflexivity.
Qed.
Lemma strongly_weaken {A} (R R' : A -> A -> Prop) l : (forall a b, R a b -> R' a b) -> StronglySorted R l -> StronglySorted R' l.
Proof. intros H. induction 1 as [|x l S IH F]; constructor; [exact IH|]. eapply Forall_impl; [|exact F]. apply H. Qed.
Lemma sorted_distinct {A} (R : A -> A -> Prop) (l : list A) : StronglySorted (fun a b => R a b /\ ~ R b a) l -> forall a b, In a l -> In b l -> R a b -> R b a -> a = b.
Proof.
  induction 1 as [|x l S IH F]; intros a b Ha Hb; [destruct Ha|]. rewrite Forall_forall in F. destruct Ha as [<-|Ha], Hb as [<-|Hb]; intros H1 H2; [reflexivity| | |now apply IH].
  - destruct (F b Hb). contradiction.
  - destruct (F a Ha). contradiction.
Qed.
(** C120: the annotations of a field that finds every element once are in document order of the elements; those of
    one element follow each other. *)
Theorem C120_order : forall xm tag l m k, T xm tag = Ok l -> dict_get tag xm = Some m -> NoDup (map fst m) -> In k (map fst m) -> plain_name k ->
  (forall es, found_by xpath (parse_xpaths sp (dict_get k m)) [] es -> NoDup es /\ forall e, In e es -> node_at root e <> None) ->
  exists f es ls, conf m k = Ok f /\ (exists found, found_by xpath (parse_xpaths sp (dict_get k m)) [] found /\ Permutation found es) /\ StronglySorted comes_before es /\
    Forall2 (fun e x => ents k f e = Ok x) es ls /\ filter (fun t => streq (tg_name t) k) l = map snd (concat ls).
Proof.
  intros xm tag l m k HT Hm Hnd Hk Pk Hone.
  assert (Hkn : In k (field_names m)) by (now apply field_names_spec).
  apply targets_inv in HT as (m' & ls & Hm' & HF & ->). assert (m' = m) as -> by congruence.
  assert (Hnf : NoDup (field_names m)) by (now apply NoDup_filter).
  set (fents := field_entries sp wd dg lower compiles parse_int show_int json_concat json_range re_group re_spans xpath content_excluding root) in *.
  assert (G : forall names ls, Forall2 (fun k es => fents m k = Ok es) names ls -> NoDup names ->
     (~ In k names -> filter (fun x => streq (tg_name (snd x)) k) (concat ls) = []) /\
     (In k names -> exists es, fents m k = Ok es /\ filter (fun x => streq (tg_name (snd x)) k) (concat ls) = es)).
  { clear. intros names ls HF. induction HF as [|k' es names ls He HF IH]; intros Hnd; [split; [reflexivity|intros []]|].
    inversion Hnd as [|? ? Hni Hnd']; subst. destruct (IH Hnd') as [I1 I2]. cbn [concat]. rewrite filter_app. split.
    - intros Hn. rewrite I1 by (intros ?; apply Hn; now right). rewrite app_nil_r. apply PropTargets.filter_none. intros x Hx. rewrite (fents_names _ _ _ _ _ _ _ _ _ _ _ _ _ _ _ _ _ He x Hx).
      apply streq_false. intros ->. apply Hn. now left.
    - intros [->|Hin].
      + exists es. split; [exact He|]. rewrite I1 by exact Hni. rewrite app_nil_r. apply PropTargets.filter_every. intros x Hx. rewrite (fents_names _ _ _ _ _ _ _ _ _ _ _ _ _ _ _ _ _ He x Hx). now apply streq_true.
      + destruct (I2 Hin) as (es' & E1 & E2). exists es'. split; [exact E1|]. rewrite E2. rewrite PropTargets.filter_none; [reflexivity|]. intros x Hx. rewrite (fents_names _ _ _ _ _ _ _ _ _ _ _ _ _ _ _ _ _ He x Hx).
        apply streq_false. intros ->. contradiction. }
  destruct (proj2 (G _ _ HF Hnf) Hkn) as (E & HE & EF). clear G.
  apply fents_inv in HE as (f & es0 & ls0 & Hf & Hfound & HF0 & HE). subst E. pose proof (conf_fields _ _ _ _ _ _ _ _ _ Hf) as (Hxp & _). rewrite Hxp in Hfound.
  destruct (Hone es0 Hfound) as [ND NN].
  set (le := fun a b => Nat.leb (pos a) (pos b)). set (es := sort le es0).
  assert (P : Permutation es0 es) by (symmetry; apply sort_perm).
  assert (Ses : StronglySorted comes_before es).
  { assert (S : StronglySorted (fun a b => le a b = true) es) by (apply sort_sorted; unfold le; intros; rewrite !Nat.leb_le in *; lia).
    assert (ND' : NoDup es) by (eapply Permutation_NoDup; eassumption). assert (NN' : forall e, In e es -> node_at root e <> None) by (intros e He; apply NN; eapply Permutation_in; [symmetry; exact P|exact He]).
    clear - S ND' NN'. induction S as [|x l S IH F]; [constructor|]. inversion ND' as [|? ? Hni ND'']; subst. constructor; [apply IH; [exact ND''|intros; apply NN'; now right]|].
    rewrite Forall_forall in *. intros y Hy. specialize (F y Hy). unfold le in F. apply Nat.leb_le in F. apply (C88_positions root); [apply NN'; now left|apply NN'; now right|]. fold (pos x). fold (pos y).
    destruct (Nat.eq_dec (pos x) (pos y)) as [e|n]; [|lia]. exfalso. apply C88_positions_differ in e; [subst; contradiction|apply NN'; now left|apply NN'; now right]. }
  destruct (F2_perm _ _ _ P _ HF0) as (ls1 & HF1 & P1).
  exists f, es, ls1. split; [exact Hf|]. split; [now exists es0|]. split; [exact Ses|]. split; [exact HF1|].
  rewrite filter_of_map. f_equal. symmetry.
  assert (Sc : StronglySorted (fun a b => leb a b /\ key_leb (fst b) (fst a) = false) (concat ls1)) by (apply (all_sorted k f es); [exact Ses|intros e He; apply NN; eapply Permutation_in; [symmetry; exact P|exact He]|exact HF1]).
  apply (sorted_same leb).
  - apply sorted_distinct. eapply strongly_weaken; [|exact Sc]. intros a b [H1 H2]. split; [exact H1|]. unfold leb. congruence.
  - eapply strongly_weaken; [|exact Sc]. now intros a b [H1 _].
  - apply filter_sorted. apply sort_sorted; unfold leb; intros; [apply key_total|eapply key_trans; eassumption].
  - etransitivity; [symmetry; apply perm_concat; exact P1|]. rewrite <- EF. apply filter_perm. symmetry. apply sort_perm.
Qed.
End Order.
(* ---------------------------------------------------------------- *)
(** ** The fields of the mapping *)
Lemma dict_get_filter {A} (keep : str -> bool) (l : list (str * A)) key : dict_get key (filter (fun kv => keep (fst kv)) l) = if keep key then dict_get key l else None.
Proof.
  induction l as [|[k v] l IH]; [now destruct (keep key)|]. cbn [filter fst dict_get]. destruct (keep k) eqn:E; cbn [dict_get]; destruct (streq key k) eqn:S.
  - apply streq_true in S. subst k. now rewrite E.
  - exact IH.
  - apply streq_true in S. subst k. rewrite IH, E. reflexivity.
  - exact IH.
Qed.
Lemma kept_option m k suffix : reduced_to m k -> starts_with (u ".") (u suffix) && negb (starts_with (u ".sub.") (u suffix)) = true -> option_of m k suffix = option_of article k suffix.
Proof.
  intros (keep & -> & H) N. apply andb_true_iff in N as [N1 N2]. apply negb_true_iff in N2. unfold option_of. rewrite dict_get_filter, H; [reflexivity| |].
  - right. apply starts_with_spec in N1 as (r & E). exists r. now rewrite E.
  - intros r E. apply app_inv_head in E. rewrite E in N2. assert (starts_with (u ".sub.") (u ".sub." ++ r) = true) as X by (apply starts_with_spec; now exists r). congruence.
Qed.
Lemma not_sub (k r : str) : k <> k ++ u ".sub." ++ r.
Proof. intros E. apply (f_equal (@length N)) in E. rewrite !app_length in E. cbn in E. lia. Qed.
Lemma kept_self m k : reduced_to m k -> dict_get k m = dict_get k article.
Proof. intros (keep & -> & H). rewrite dict_get_filter, H; [reflexivity|now left|apply not_sub]. Qed.
Lemma kept_in m k kv : reduced_to m k -> In kv m -> In kv article.
Proof. intros (keep & -> & _) H. now apply filter_In in H. Qed.
Lemma conf_concat sp lower compiles parse_int jc jr m k f : field_conf sp lower compiles parse_int jc jr m k = Ok f -> or_default jc (option_of m k ".children.concat") = Ok (fc_concat f) /\ or_default jr (option_of m k ".children.range") = Ok (fc_range f).
Proof.
  unfold field_conf. change (opt m k) with (option_of m k). intros H.
  destruct (or_default jc _) as [cc|]; [|discriminate]. cbn [bind] in H. destruct (or_default jr _) as [rr|]; [|discriminate]. cbn [bind] in H.
  destruct (compiled compiles (option_of m k ".regex")) as [re|]; [|discriminate]. cbn [bind] in H.
  destruct (compiled compiles (option_of m k ".extract-regex")) as [ex|]; [|discriminate]. cbn [bind] in H.
  match type of H with bind ?x _ = _ => destruct x as [pr|]; [|discriminate] end. cbn [bind] in H.
  match type of H with bind ?x _ = _ => destruct x as [rw|]; [|discriminate] end. cbn [bind] in H. injection H as <-. now split.
Qed.
(** the options of these fields *)
Definition second_expr (second : string) : string := append "./" second.
Definition own_expr (own : list string) : string := match own with [x] => append "./" x | _ => "./label | ./caption"%string end.
Lemma labelled_options k second own : In (k, (second, own)) labelled_fields ->
  (forall s, In s [".ignore"; ".regex"; ".extract-regex"; ".children.range"; ".unmatched-parent-text"; ".match-multiple"; ".bonding"; ".require-next"]%string -> option_of article (u k) s = None) /\
  parse_xpaths ascii_space (option_of article (u k) ".children") = [u (own_expr own)] /\
  (exists s, option_of article (u k) ".children.concat" = Some s /\ s <> [] /\ read_concat s = Ok [[at_xpath "./label"; fixed_text " "; at_xpath (second_expr second)]]) /\
  (forall n x, In (n, x) (sub_mapping article (u k)) -> x = u "./label" \/ x = u "./caption") /\
  In (second_expr second, rel_path [second]) inner_paths /\ In (own_expr own, if Nat.eqb (length own) 1 then rel_path own else rel_either (rel_path ["label"%string]) (rel_path ["caption"%string])) inner_paths /\
  (second = "title"%string /\ own = ["title"%string] \/ second = "caption"%string /\ own = ["label"; "caption"]%string) /\ plain_name (u k) /\ In (u k) (map fst article).
Proof.
  intros H.
  assert (E : forallb (fun r => let '(k, (second, own)) := r in
     forallb (fun s => match option_of article (u k) s with None => true | _ => false end) [".ignore"; ".regex"; ".extract-regex"; ".children.range"; ".unmatched-parent-text"; ".match-multiple"; ".bonding"; ".require-next"]%string &&
     match parse_xpaths ascii_space (option_of article (u k) ".children") with [x] => streq x (u (own_expr own)) | _ => false end &&
     match option_of article (u k) ".children.concat" with Some (c :: s) => match read_concat (c :: s) with Ok [l] => sources_eqb l [at_xpath "./label"; fixed_text " "; at_xpath (second_expr second)] | _ => false end | _ => false end &&
     forallb (fun nx => streq (snd nx) (u "./label") || streq (snd nx) (u "./caption")) (sub_mapping article (u k)) &&
     negb (has ch_dot (u k)) && mem (u k) (map fst article)) labelled_fields = true) by (vm_compute; reflexivity).
  rewrite forallb_forall in E. specialize (E _ H). cbv beta iota in E. rewrite !andb_true_iff in E. destruct E as [[[[[E1 E2] E3] E4] E5] E6].
  split; [|split; [|split; [|split; [|split; [|split; [|split; [|split]]]]]]].
  - intros s Hs. rewrite forallb_forall in E1. specialize (E1 s Hs). now destruct (option_of article (u k) s).
  - destruct (parse_xpaths _ _) as [|x [|? ?]]; try discriminate. apply streq_true in E2. now subst.
  - destruct (option_of article (u k) ".children.concat") as [[|c s]|]; try discriminate. exists (c :: s). split; [reflexivity|]. split; [discriminate|]. destruct (read_concat (c :: s)) as [[|l [|? ?]]|]; try discriminate. apply sources_eqb_eq in E3. now subst.
  - intros n x Hx. rewrite forallb_forall in E4. specialize (E4 _ Hx). cbn [snd] in E4. apply orb_true_iff in E4 as [E4|E4]; apply streq_true in E4; auto.
  - clear - H. destruct H as [[= <- <- <-]|H]; [right; right; right; now left|]. apply in_map_iff in H as (f & [= <- <- <-] & _). unfold inner_paths, second_expr. apply in_or_app. right. apply in_or_app. left. right. right. right. now left.
  - clear - H. destruct H as [[= <- <- <-]|H]; [right; right; right; now left|]. apply in_map_iff in H as (f & [= <- <- <-] & _). right. now left.
  - clear - H. destruct H as [[= <- <- <-]|H]; [now left|]. apply in_map_iff in H as (f & [= <- <- <-] & _). now right.
  - apply negb_true_iff in E5. now apply has_false.
  - now apply mem_In.
Qed.
Lemma no_sub_regexes k n : dict_get (k ++ u ".sub." ++ n ++ u ".extract-regex") article = None.
Proof.
  destruct (dict_get _ article) as [v|] eqn:D; [|reflexivity]. apply dict_get_In in D. assert (E : forallb (fun kv => negb (ends_with (u ".extract-regex") (fst kv))) article = true) by (vm_compute; reflexivity).
  rewrite forallb_forall in E. specialize (E _ D). cbn [fst] in E. rewrite !app_assoc, ends_with_app in E. discriminate.
Qed.
Lemma space_ws4 sp : usual_space sp -> forall c, ws4 c = true -> sp c = true.
Proof. intros H c Hc. unfold ws4 in Hc. rewrite !orb_true_iff, !N.eqb_eq in Hc. destruct Hc as [[[-> | ->] | ->] | ->]; rewrite H by (vm_compute; reflexivity); reflexivity. Qed.
Lemma trail_erased root q x : trail root q = Some x -> node_at (erase root) q <> None.
Proof.
  intros H. apply trail_node in H. revert root H. induction q as [|i q IH]; intros root H; [discriminate|]. cbn [xml_at node_at] in *. destruct root as [n a t cs tl|tl]; cbn [xchildren erase nchildren] in *; [|now destruct i].
  rewrite nth_error_map. destruct (nth_error cs i) as [c|]; [|now elim H]. cbn [option_map]. now apply IH.
Qed.
Section Fields.
Variable b : libs.
Variable rd : readers.
Variable excl : xml -> list npath -> npath -> str.
Variable root : xml.
Hypothesis Hroot : exists a t cs tl, root = Elem (u "article") a t cs tl.
Hypothesis Husual : usual_texts b rd.
Let sp := lb_sp b.
Lemma label_found e x : trail root e = Some x -> xpath_at root e (u "./label") = Ok (children_called [u "label"] root e).
Proof.
  intros H. apply (found_called root e x "./label"%string (rel_path ["label"%string])); [|exact H|intros m; apply rel_path_one]. unfold inner_paths. apply in_or_app. right. apply in_or_app. left. now left.
Qed.
Lemma caption_found e x : trail root e = Some x -> xpath_at root e (u "./caption") = Ok (children_called [u "caption"] root e).
Proof.
  intros H. apply (found_called root e x "./caption"%string (rel_path ["caption"%string])); [|exact H|intros m; apply rel_path_one]. unfold inner_paths. apply in_or_app. right. apply in_or_app. left. right. right. right. now left.
Qed.
Lemma value_is texts v : text_value texts = Some v -> is_value texts v.
Proof.
  destruct texts as [|s [|s' l]]; [discriminate|intros [= <-]; reflexivity|]. unfold text_value. intros E. assert (v = VMany (longest_first (s :: s' :: l))) as -> by congruence. cbn [is_value]. unfold longest_first. split; [apply sort_perm|]. rewrite (Permutation_length (sort_perm _ _)). cbn [length]. lia.
Qed.
Theorem C119_labelled : forall m k second own c l,
  In (k, (second, own)) labelled_fields -> In (k, c) field_paths -> reduced_to m (u k) ->
  targets_of b (with_texts rd) [(u "article", m)] (article_doc excl root) = Ok l ->
  exists es ls, StronglySorted comes_before es /\ (forall e, In e es <-> exists x, trail root e = Some x /\ c x) /\
    Forall2 (labelled sp root (u k) second own (sub_mapping m (u k))) es ls /\
    filter (fun t => streq (tg_name t) (u k)) l = concat ls.
Proof.
  intros m k second own c l Hk Hc Hm HT. destruct Husual as (Hsp & Hlow & _ & _ & _). fold sp in Hsp.
  destruct (labelled_options _ _ _ Hk) as (Onone & Ochildren & (cs & Oc1 & Oc2 & Oc3) & Osub & In2 & In3 & Oown & Pk & Ik).
  assert (Hroot' : exists n a t cs tl, root = Elem n a t cs tl) by (destruct Hroot as (a & t & cs' & tl & E); now exists (u "article"), a, t, cs', tl).
  unfold targets_of in HT. destruct Hroot as (ra & rt & rcs & rtl & Er).
  assert (Etag : td_tag (article_doc excl root) = u "article") by (rewrite Er; reflexivity). rewrite Etag in HT.
  change (td_xpath (article_doc excl root)) with (xpath_at root) in HT. change (td_root (article_doc excl root)) with (erase root) in HT. change (td_excluding (article_doc excl root)) with (excl root) in HT.
  assert (Km : dict_get (u k) m = dict_get (u k) article) by (now apply kept_self).
  destruct (C115_fields sp root k c Hsp Hroot' Hc) as (found & Hfound & NDfound & Infound).
  assert (NDm : NoDup (map fst m)).
  { destruct Hm as (keep & -> & _). assert (E : forall A (l : list (str * A)), NoDup (map fst l) -> NoDup (map fst (filter (fun kv => keep (fst kv)) l))).
    { clear. intros A l. induction l as [|[k v] l IH]; cbn [map filter fst]; [auto|]. intros H. inversion H as [|? ? H1 H2]; subst. destruct (keep k); [|now apply IH]. cbn [map fst]. constructor; [|now apply IH]. intros N. apply H1. apply in_map_iff in N as (y & <- & Hy). apply filter_In in Hy as [Hy _]. now apply in_map. }
    apply E. exact (proj1 (proj2 (C99_mapping _ _ (fun _ _ => eq_refl) (fun _ _ => eq_refl)))). }
  assert (Ikm : In (u k) (map fst m)).
  { apply in_map_iff in Ik as ([k' v] & E & Hin). cbn in E. subst k'. destruct Hm as (keep & Em & Hkeep). apply in_map_iff. exists (u k, v). split; [reflexivity|]. rewrite Em. apply filter_In. split; [exact Hin|]. cbn [fst].
    apply Hkeep; [now left|apply not_sub]. }
  destruct (C120_order _ _ _ _ _ _ _ _ _ _ _ _ _ _ _ _ _ m (u k) HT eq_refl NDm Ikm Pk) as (f & es & ls & Hf & (found' & Hf' & Pf) & Ses & HF & Hl).
  { intros es Hes. fold sp in Hes. rewrite Km in Hes. apply all_xpaths_spec in Hes. rewrite Hfound in Hes. injection Hes as <-. split; [exact NDfound|]. intros e He. apply Infound in He as (x & Hx & _). exact (trail_erased _ _ _ Hx). }
  fold sp in Hf, Hf'. rewrite Km in Hf'. apply all_xpaths_spec in Hf'. rewrite Hfound in Hf'. injection Hf' as <-.
  assert (Ines : forall e, In e es <-> exists x, trail root e = Some x /\ c x).
  { intros e. rewrite <- Infound. split; intros H; [apply Permutation_sym in Pf|]; exact (Permutation_in _ Pf H). }
  pose proof (conf_fields _ _ _ _ _ _ _ _ _ Hf) as (_ & Fig & Fch & Fre & Fex & _ & Fmu & Fbo & Fne & Fun & Fsubs). destruct (conf_concat _ _ _ _ _ _ _ _ _ Hf) as [Fco Fra].
  assert (K : forall s, starts_with (u ".") (u s) && negb (starts_with (u ".sub.") (u s)) = true -> option_of m (u k) s = option_of article (u k) s) by (intros s Hs; now apply kept_option).
  rewrite K, (Onone ".ignore"%string) in Fig by (try reflexivity; now left). cbn in Fig.
  rewrite K, (Onone ".regex"%string) in Fre by (try reflexivity; cbn; tauto). cbn in Fre.
  rewrite K, (Onone ".extract-regex"%string) in Fex by (try reflexivity; cbn; tauto). cbn in Fex.
  rewrite K, (Onone ".match-multiple"%string) in Fmu by (try reflexivity; cbn; tauto).
  rewrite K, (Onone ".bonding"%string) in Fbo by (try reflexivity; cbn; tauto).
  rewrite K, (Onone ".require-next"%string) in Fne by (try reflexivity; cbn; tauto).
  rewrite K, (Onone ".unmatched-parent-text"%string) in Fun by (try reflexivity; cbn; tauto).
  rewrite K, (Onone ".children.range"%string) in Fra by (try reflexivity; cbn; tauto). cbn in Fra. injection Fra as Fra.
  rewrite K in Fch by reflexivity. rewrite (xpaths_usual sp _ Hsp), Ochildren in Fch by (intros v; apply article_ascii).
  rewrite K in Fco by reflexivity. rewrite Oc1 in Fco. cbn [or_default rd_json_concat with_texts] in Fco. assert (Fco' : fc_concat f = [[at_xpath "./label"; fixed_text " "; at_xpath (second_expr second)]]) by (destruct cs; [easy|]; cbn [or_default] in Fco; rewrite Oc3 in Fco; now injection Fco as <-). clear Fco.
  assert (Fl : forall x : bool, (x = true <-> (None : ostr) = Some (u "true")) -> x = false) by (intros [|] [H1 H2]; [discriminate (H1 eq_refl)|reflexivity]).
  apply Fl in Fmu, Fbo, Fne, Fun.
  exists es, (map (map snd) ls). split; [exact Ses|]. split; [exact Ines|]. split; [|now rewrite Hl, concat_map].
  assert (HFe : Forall (fun e => exists x, trail root e = Some x) es) by (apply Forall_forall; intros e He; apply Ines in He as (x & Hx & _); now exists x).
  clear - HF HFe Fig Fch Fre Fex Fmu Fbo Fne Fun Fra Fco' Fsubs Hsp In2 In3 Oown Osub Hm Husual. induction HF as [|e y es ls He HF IH]; cbn [map]; constructor; [|apply IH; now inversion HFe].
  inversion HFe as [|? ? (x & Hx) _]; subst. clear IH HF HFe.
  apply ents_inv in He as (subs & texts & st & Hs & Ht & ->).
  assert (U : uses_children (lb_sp b) (erase root) f e = true).
  { unfold uses_children. rewrite Fch. apply orb_true_iff. left. apply negb_true_iff. destruct Oown as [[-> ->] | [-> ->]]; reflexivity. }
  rewrite U in Ht.
  assert (Hl2 : xpath_at root e (u (second_expr second)) = Ok (children_called [u second] root e)) by (apply (found_called root e x _ _ _ In2 Hx); intros mm; apply rel_path_one).
  assert (Hlc : xpath_at root e (u (own_expr own)) = Ok (children_called (map u own) root e)).
  { apply (found_called root e x _ _ _ In3 Hx). intros mm. destruct Oown as [[-> ->] | [-> ->]]; cbn [length Nat.eqb map]; [apply rel_path_one|]. unfold rel_either. rewrite !rel_path_one. split.
    - intros [(kk & a & -> & [<-|[]])|(kk & a & -> & [<-|[]])]; eexists _, a; (split; [reflexivity|]); [now left|right; now left].
    - intros (kk & a & -> & [<-|[<-|[]]]); [left|right]; eexists _, a; (split; [reflexivity|now left]). }
  assert (L : extract_children sp (lb_dg b) (lb_int b) (rd_show_int (with_texts rd)) (xpath_at root) (excl root) (erase root) e f = Ok (labelled_texts sp root second own e, [])).
  { apply (labelled_children sp (lb_dg b) (space_ws4 _ Hsp) _ _ _ root e f second own "./label" (second_expr second) (u (own_expr own)) (label_found e x Hx) Hl2 Hlc); try assumption; [|discriminate|discriminate|now symmetry].
    intros n Hn. destruct Oown as [[-> ->] | [-> ->]]; cbn in Hn; [destruct Hn as [<-|[]]; now right|destruct Hn as [<-|[<-|[]]]; auto]. }
  pose proof (eq_trans (eq_sym L) Ht) as Ht'. clear Ht L. rename Ht' into Ht.
  injection Ht as <- <-. unfold with_pattern, with_extract. rewrite Fre, Fex. cbn [indexed length seq map combine]. rewrite app_nil_r.
  unfold labelled. destruct (labelled_texts sp root second own e) as [|t0 tl0] eqn:Et; [reflexivity|]. destruct (text_value (t0 :: tl0)) as [v|] eqn:Ev; [|now destruct tl0].
  exists v. split; [|now apply value_is]. cbn [map snd]. rewrite Fmu, Fbo, Fne. f_equal. f_equal.
  (* sub annotations *)
  apply (subs_spec sp (rd_compiles (with_texts rd)) (rd_spans (with_texts rd)) (xpath_at root) (erase root) (space_ws4 _ Hsp)) in Hs as (founds & HF & ->). rewrite Fsubs in *. clear Fsubs.
  assert (Hsm : forall n y, In (n, y) (sub_mapping m (u k)) -> (y = u "./label" \/ y = u "./caption") /\ option_of m (u k ++ u ".sub." ++ n) ".extract-regex" = None).
  { intros n y Hy. apply C62_sub_mapping in Hy as [Pn Hy]. split.
    - apply (Osub n). apply C62_sub_mapping. split; [exact Pn|]. exact (kept_in _ _ _ Hm Hy).
    - unfold option_of. destruct Hm as (keep & -> & _). rewrite dict_get_filter, <- !app_assoc, no_sub_regexes. now destruct (keep _). }
  clear - HF Hsm Hx. revert founds HF. induction (sub_mapping m (u k)) as [|[n y] sm IH]; intros founds HF; inversion HF as [|? ns ? fs H1 H2]; subst; [reflexivity|].
  cbn [map combine concat sub_texts_at flat_map fst snd] in *. destruct (Hsm n y (or_introl eq_refl)) as [Hy Hre]. rewrite Hre. unfold sub_texts_at. cbn [flat_map fst snd]. f_equal; [|apply (IH (fun n y H => Hsm n y (or_intror H)) fs H2)].
  assert (ns = children_called [skipn 2 y] root e) as ->.
  { destruct Hy as [-> | ->]; [rewrite (label_found e x Hx) in H1|rewrite (caption_found e x Hx) in H1]; injection H1 as <-; reflexivity. }
  clear. induction (children_called [skipn 2 y] root e) as [|p ps IH]; [reflexivity|]. cbn [flat_map map filter]. rewrite IH. clear IH.
  assert (C : clean_text sp (erase root) p = text_at sp root p) by (unfold clean_text, content, text_at; destruct (node_at (erase root) p); reflexivity). rewrite C.
  destruct (text_at sp root p) as [|ch s]; reflexivity.
Qed.
End Fields.
Definition kept_by (c : command) (o : cmd_options) (key : str) : bool :=
  match o_fields o with [] => true | fs => mem (field_name key) fs end &&
  match (match c with CFulltext | CFigure | CTable | CAffiliation => o_sub_fields o | _ => [] end) with [] => true | subs => sub_selected subs key end.
Lemma filter_twice {A} (p q : A -> bool) l : filter q (filter p l) = filter (fun x => p x && q x) l.
Proof. induction l as [|x l IH]; [reflexivity|]. cbn [filter]. destruct (p x); cbn [filter andb]; [destruct (q x); now rewrite IH|exact IH]. Qed.
Lemma command_keeps c o (t : str) (a : options) : o_overrides o = [] -> fst (command_fields c [(t, a)] o) = [(t, filter (fun kv => kept_by c o (fst kv)) a)].
Proof.
  intros Ho. unfold command_fields. rewrite Ho. cbn [mapping_with_overrides]. unfold filtered_mapping_and_fields. cbv zeta. cbn [fst]. unfold kept_by.
  set (subs := match c with CFulltext | CFigure | CTable | CAffiliation => o_sub_fields o | _ => [] end).
  assert (E : forall a' : options, filter_sub_fields [(t, a')] subs = [(t, filter (fun kv => match subs with [] => true | s :: l => sub_selected (s :: l) (fst kv) end) a')]).
  { intros a'. unfold filter_sub_fields. destruct subs as [|s ss]; [|reflexivity]. now rewrite PropTargets.filter_every. }
  destruct (o_fields o) as [|f fs]; [rewrite E; reflexivity|]. unfold filter_options at 1. cbn [map fst snd]. rewrite E. now rewrite filter_twice.
Qed.
Lemma command_reduced c o k : plain_name (u k) -> o_overrides o = [] -> o_fields o = [] \/ In (u k) (o_fields o) ->
  exists m, reduced_to m (u k) /\ fst (command_fields c [(u "article", article)] o) = [(u "article", m)].
Proof.
  intros Pk Ho Hf.
  rewrite (command_keeps c o (u "article") article Ho). eexists. split; [|reflexivity]. exists (kept_by c o). split; [reflexivity|]. intros key Hb Hs. unfold kept_by. apply andb_true_iff. split.
    - destruct (o_fields o) as [|f fs]; [reflexivity|]. destruct Hf as [Hf|Hf]; [discriminate|]. apply (proj2 (field_name_spec key (u k) Pk)) in Hb. rewrite Hb. now apply mem_In.
    - destruct (match c with CFulltext | CFigure | CTable | CAffiliation => o_sub_fields o | _ => [] end) as [|s ss]; [reflexivity|]. unfold sub_selected. destruct (sub_field_of key) as [r|] eqn:Es; [|reflexivity]. exfalso. apply sub_field_spec in Es as (f & Pf & ->).
      assert (f = u k) as ->; [|now apply (Hs r)]. apply (proj2 (field_name_spec _ (u k) Pk)) in Hb. rewrite <- Hb. symmetry. apply field_name_spec; [exact Pf|]. right. now exists (u "sub." ++ r).
Qed.
(** ... as made by the commands: all fields, or the field is one of those asked for; the sub
    annotations are those of the sub fields that are asked for *)
Theorem C119_command : forall b rd excl root c o k second own cond l,
  (exists a t cs tl, root = Elem (u "article") a t cs tl) -> usual_texts b rd -> o_overrides o = [] ->
  In (k, (second, own)) labelled_fields -> In (k, cond) field_paths -> o_fields o = [] \/ In (u k) (o_fields o) ->
  targets_of b (with_texts rd) (fst (command_fields c [(u "article", article)] o)) (article_doc excl root) = Ok l ->
  exists m es ls, reduced_to m (u k) /\ fst (command_fields c [(u "article", article)] o) = [(u "article", m)] /\
    StronglySorted comes_before es /\ (forall e, In e es <-> exists x, trail root e = Some x /\ cond x) /\
    Forall2 (labelled (lb_sp b) root (u k) second own (sub_mapping m (u k))) es ls /\
    filter (fun t => streq (tg_name t) (u k)) l = concat ls.
Proof.
  intros b rd excl root c o k second own cond l Hroot Hu Ho Hk Hc Hf HT.
  destruct (labelled_options _ _ _ Hk) as (_ & _ & _ & _ & _ & _ & _ & Pk & _).
  destruct (command_reduced c o k Pk Ho Hf) as (m & Hm & Em). rewrite Em in HT. destruct (C119_labelled b rd excl root Hroot Hu m k second own cond l Hk Hc Hm HT) as (es & ls & H1 & H2 & H3 & H4). exists m, es, ls. exact (conj Hm (conj Em (conj H1 (conj H2 (conj H3 H4))))).
Qed.

(* ---------------------------------------------------------------- *)
(** ** Examples *)
Definition caption_article : xml :=
  el "article" [el "front" [];
    el "body" [el "fig" [el "caption" [Elem (u "p") [] (u "only ") [] []; Misc (u "this")]];
               el "sec" [Elem (u "title") [] (u "Shores") [] [];
                         el "fig" [Elem (u "label") [] (u "Fig 1. ") [] (u "x"); el "caption" [Elem (u "p") [] (u "stones") [] []]; Elem (u "label") [] (u "(a)") [] []]];
               el "fig" [Elem (u "p") [] (u "no caption") [] []]]].
Definition caption_targets : res (list tgt) := targets_of real_libs (with_texts ship_readers) [(u "article", article)] (article_doc (fun _ _ _ => []) caption_article).
Example C119_ex_figures : exists l, caption_targets = Ok l /\
  filter (fun t => streq (tg_name t) (u "figure")) l =
    [mkTgt (u "figure") (VOne (u "only this")) false false false [(u "figure-caption", VOne (u "only this"))];
     mkTgt (u "figure") (VOne (u "Fig 1. (a) stones")) false false false [(u "figure-label", VOne (u "Fig 1.")); (u "figure-label", VOne (u "(a)")); (u "figure-caption", VOne (u "stones"))]].
Proof. eexists. split; [vm_compute; reflexivity|]. vm_compute. reflexivity. Qed.
Example C119_ex_texts : labelled_texts ascii_space caption_article "caption" ["label"; "caption"]%string [1; 1; 1] = [u "Fig 1. (a) stones"] /\
  labelled_texts ascii_space caption_article "caption" ["label"; "caption"]%string [1; 2] = [] /\ labelled_texts ascii_space caption_article "title" ["title"]%string [1; 1] = [u "Shores"].
Proof. vm_compute. auto. Qed.
Example C119_ex_meets : reduced_to article (u "figure") /\ (exists a t cs tl, caption_article = Elem (u "article") a t cs tl) /\ usual_texts real_libs ship_readers /\ (exists l, caption_targets = Ok l) /\
  In ("figure", ("caption", ["label"; "caption"]))%string labelled_fields /\ (exists c, In ("figure"%string, c) field_paths).
Proof.
  split; [exists (fun _ => true); split; [|reflexivity]; symmetry; now apply PropTargets.filter_every|]. split; [now repeat eexists|]. split; [exact (proj1 C118_ex_texts)|]. split; [eexists; vm_compute; reflexivity|].
  split; [right; right; now left|]. eexists. unfold field_paths. do 27 right. now left.
Qed.
Example C120_ex_meets : dict_get (u "article") [(u "article", article)] = Some article /\ NoDup (map fst article) /\ plain_name (u "figure") /\
  (forall es, found_by (xpath_at caption_article) (parse_xpaths ascii_space (dict_get (u "figure") article)) [] es -> NoDup es /\ forall e, In e es -> node_at (erase caption_article) e <> None) /\
  found_by (xpath_at caption_article) (parse_xpaths ascii_space (dict_get (u "figure") article)) [] [[1; 0]; [1; 1; 1]; [1; 2]].
Proof.
  assert (E : all_xpaths (xpath_at caption_article) [] (parse_xpaths ascii_space (dict_get (u "figure") article)) = Ok [[1; 0]; [1; 1; 1]; [1; 2]]) by (vm_compute; reflexivity).
  split; [reflexivity|]. split; [exact (proj1 (proj2 (C99_mapping _ _ (fun _ _ => eq_refl) (fun _ _ => eq_refl))))|]. split; [unfold plain_name, has; vm_compute; intuition discriminate|]. split.
  - intros es H. apply all_xpaths_spec in H. rewrite E in H. injection H as <-. split; [repeat constructor; cbn; intuition discriminate|]. intros e [<-|[<-|[<-|[]]]]; vm_compute; discriminate.
  - now apply all_xpaths_spec.
Qed.
Print Assumptions C119_labelled.
Print Assumptions C119_command.
Print Assumptions C120_order.
