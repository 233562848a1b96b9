(** C87: the commands do not raise an exception. *)
From Coq Require Import QArith.
From Verif Require Import Base ModelTags ProofTags ModelTokenize ModelXml ModelTei ModelTeiDoc SpecTeiRead SpecTeiWrite SpecTeiDoc ProofTeiDoc PropTeiDoc PropTeiRead PropTokenize
  ModelMapping ModelTarget ModelFuzzyMatch PropFuzzyMatch ModelWordMatch PropWordMatch ModelFuzzySearch PropFuzzySearch ModelClusters PropClusters ModelJoined ModelPostAnnot PropPostAnnot
  ModelLineNumbers PropLineNumbers ModelExpand ModelSegmentation ModelReference PropReference PropReferenceDoc
  ModelSimpleMatch PropSimpleMatch ModelMatch PropMatch ModelAnnotators PropAnnotators ModelCommands PropCommands PropSaves PropCommandRuns.
Open Scope list_scope.
Open Scope nat_scope.

(* ---------------------------------------------------------------- *)
(** ** Specification *)
Definition succeeds {A} (r : res A) : Prop := exists x, r = Ok x.
(** the searches of the matchers raise no exception, and the blocks of the complex
    matcher are in bounds and in order (as those of [SequenceMatcher] are) *)
Definition searches (b : libs) : Prop :=
  (forall h n mc, succeeds (lb_chunks b h n mc)) /\
  (forall h n, Forall succeeds (lb_all b h n)) /\
  (forall x y, exists l, lb_blocks b x y = Ok l /\ PropFuzzyMatch.valid x y l).
(** values of sub annotations are texts; lists come from regular expressions *)
Definition plain_subs (ts : list tann) : Prop :=
  forall a nv, In a ts -> In nv (an_subs a) -> exists v, snd nv = VOne v.
(** the matcher of a command with one ([get_default_annotators]); the others have the
    simple one *)
Definition with_defaults (c : command) : bool :=
  match c with CHeader | CSegmentation | CReferenceSegmenter => true | _ => false end.
Definition is_simple (c : command) (o : cmd_options) : bool := negb (with_defaults c) || o_simple o.
(** the commands for the header and for segmentation do not use sub annotations *)
Definition with_subs (c : command) : Prop := c <> CHeader /\ c <> CSegmentation.
(** what has to be given to a command *)
Definition proper (c : command) (b : libs) (o : cmd_options) (i : inputs) : Prop :=
  (is_simple c o = true -> with_subs c -> plain_subs (in_targets i)) /\
  (is_simple c o = false -> filter_total (in_seq_filter i) /\ filter_total (in_choice_filter i)) /\
  (with_defaults c = true -> o_line_numbers o = true -> o_ratio (o_line_cli o) = None /\ (0 < o_min (o_line_cli o))%Z) /\
  (c = CReference -> o_idno_prefix o = true -> forall t, In t idno_sub_tags -> dict_get t (lb_ref_regexes b) <> None).
Definition with_fuel (n : nat) (i : inputs) : inputs :=
  mkInputs (in_targets i) (in_complex i) (in_tags i) (in_segmentation i) (in_below i) (in_seq_filter i) (in_choice_filter i) (in_max_gap i) n.

(* ---------------------------------------------------------------- *)
(** ** The simple matcher *)
Lemma foldM_in {A B} (f : B -> A -> res B) l : (forall b a, In a l -> succeeds (f b a)) -> forall b, succeeds (foldM f b l).
Proof.
  induction l as [|a l IH]; intros H b; cbn [foldM]; [eexists; reflexivity|]. destruct (H b a (or_introl eq_refl)) as [b' ->]. cbn [bind].
  apply IH. intros. apply H. now right.
Qed.
Section Simple.
Variables (sp wd : N -> bool) (lower escape_re : str -> str) (re_search : str -> str -> option Z).
Variable search_chunks : str -> str -> nat -> res (option (list irange)).
Variable search_all : str -> str -> list (res irange).
Variables (c : ModelSimpleMatch.config) (so : bool).
Hypothesis chunks_ok : forall h n mc, succeeds (search_chunks h n mc).
Hypothesis all_ok : forall h n, Forall succeeds (search_all h n).
Lemma matching_chunks_ok h n mc : succeeds (matching_chunks sp wd lower search_chunks c h n mc).
Proof using chunks_ok.
  unfold matching_chunks. destruct (Nat.ltb _ _); [eexists; reflexivity|]. cbv zeta.
  match goal with |- context [search_chunks ?h ?n mc] => destruct (chunks_ok h n mc) as [r ->] end. cbn [bind].
  destruct (found r); [eexists; reflexivity|apply chunks_ok].
Qed.
Lemma spelling_chunks_ok h n sps mc : succeeds (spelling_chunks sp wd lower search_chunks c h n sps mc).
Proof using chunks_ok.
  unfold spelling_chunks. destruct (matching_chunks_ok h n mc) as [r ->]. cbn [bind]. destruct (_ || _); [eexists; reflexivity|].
  generalize (match dict_get n sps with Some l => l | None => [] end). intros l. induction l as [|x l IH]; cbn [first_spelling]; [eexists; reflexivity|].
  destruct (matching_chunks_ok h x mc) as [r' ->]. cbn [bind]. destruct (found r'); [eexists; reflexivity|exact IH].
Qed.
Lemma values_ok h sps l : succeeds (ranges_of_values sp wd lower search_chunks c h sps l).
Proof using chunks_ok.
  induction l as [|v l IH]; cbn [ranges_of_values]; [eexists; reflexivity|]. unfold spelling_range.
  destruct (spelling_chunks_ok h v sps 1) as [r ->]. cbn [bind]. destruct IH as [rs ->]. cbn [bind]. eexists; reflexivity.
Qed.
Lemma merge_ok (l : list irange) : l <> [] -> succeeds (merge_index_ranges l).
Proof using. intros H. destruct (C15_merged l) as [[-> _]|(s & e & E & _)]; [easy|]. exists (s, e). exact E. Qed.
Lemma select_ok (l : list irange) : l <> [] -> exists sel unsel, select_index_ranges l = Ok (sel, unsel) /\ sel <> [].
Proof using.
  intros H. destruct (Nat.leb_spec (length l) 1).
  - exists l, []. split; [now apply C15_select_few|exact H].
  - destruct (C15_select l) as (sel & unsel & cs & E & _ & _ & HL & _ & Hin & _); [lia|]. exists sel, unsel. split; [exact E|].
    rewrite Forall_forall in HL. apply Linked_nonempty. now apply HL.
Qed.
Lemma matching_ranges_ok text a : succeeds (matching_ranges sp wd lower search_chunks c text a).
Proof using chunks_ok.
  unfold matching_ranges. cbv zeta. destruct (an_value a) as [v|l].
  - destruct (spelling_chunks_ok (text_of text) v (tc_spellings (get_tag_config c (an_name a))) (tc_max_chunks (get_tag_config c (an_name a)))) as [r ->].
    cbn [bind]. eexists; reflexivity.
  - destruct (values_ok (text_of text) (tc_spellings (get_tag_config c (an_name a))) l) as [rs ->]. cbn [bind]. destruct rs as [|x rs]; [eexists; reflexivity|].
    destruct (select_ok (x :: rs) ltac:(discriminate)) as (sel & unsel & -> & Hs). cbn [bind fst]. destruct (merge_ok sel Hs) as [m ->]. cbn [bind].
    eexists; reflexivity.
Qed.
Lemma first_free_ok text n rs d : Forall succeeds rs -> succeeds (first_free sp c text n rs d).
Proof using.
  intros H. revert d. induction H as [|r rs [x ->] _ IH]; intros d; cbn [first_free]; [eexists; reflexivity|]. cbv zeta.
  destruct (existsb _ _); [apply IH|eexists; reflexivity].
Qed.
Lemma range_step_ok text a d r : (cf_use_sub c = true -> forall nv, In nv (an_subs a) -> exists v, snd nv = VOne v) ->
  succeeds (range_step sp lower escape_re re_search search_all c so text a d r).
Proof using all_ok.
  intros H. unfold range_step. cbv zeta. destruct (cf_use_sub c); [|eexists; reflexivity]. unfold sub_annotations.
  destruct (an_subs a) as [|s0 subs] eqn:E; [eexists; reflexivity|]. rewrite <- E in *. apply foldM_in. intros d0 nv Hin.
  unfold sub_step. destruct (H eq_refl nv Hin) as [v ->]. apply first_free_ok, all_ok.
Qed.
Lemma process_one_ok all s a : (cf_use_sub c = true -> forall nv, In nv (an_subs a) -> exists v, snd nv = VOne v) ->
  succeeds (process_one sp wd lower escape_re re_search search_chunks search_all c so all s a).
Proof using chunks_ok all_ok.
  intros H. unfold process_one. cbv zeta.
  match goal with |- context [matching_ranges _ _ _ _ _ ?t a] => destruct (matching_ranges_ok t a) as [[|r rs] ->] end; cbn [bind].
  - destruct (ostreq _ _); [eexists; reflexivity|].
    match goal with |- context [matching_ranges _ _ _ _ _ ?t a] => destruct (matching_ranges_ok t a) as [[|r rs] ->] end; cbn [bind]; [eexists; reflexivity|].
    destruct (merge_ok (r :: rs) ltac:(discriminate)) as [m ->]. cbn [bind].
    match goal with |- context [foldM ?g ?x ?l] => destruct (foldM_in g l (fun b y _ => range_step_ok _ a b y H) x) as [d' ->] end. cbn [bind]. eexists; reflexivity.
  - match goal with |- context [foldM ?g ?x ?l] => destruct (foldM_in g l (fun b y _ => range_step_ok _ a b y H) x) as [d' ->] end. cbn [bind]. eexists; reflexivity.
Qed.
Lemma process_targets_ok ts d : (cf_use_sub c = true -> plain_subs ts) ->
  succeeds (process_targets sp wd lower escape_re re_search search_chunks search_all c so ts d).
Proof using chunks_ok all_ok.
  intros H. unfold process_targets. cbv zeta. apply foldM_in. intros s a Hin. apply process_one_ok. intros Hu nv Hnv. now apply (H Hu a).
Qed.
Let loop := annotate_loop sp wd lower escape_re re_search search_chunks search_all c so.
Lemma left_in ts d s : process_targets sp wd lower escape_re re_search search_chunks search_all c so ts d = Ok s ->
  forall a, In a (st_left s) -> In a ts.
Proof using.
  intros H. unfold process_targets in H. cbv zeta in H.
  eapply (foldM_inv (fun s => forall a, In a (st_left s) -> In a ts)); [| |exact H]; [|intros a []].
  intros s1 a s2 Hin H1 H2. unfold process_one in H2. cbv zeta in H2.
  assert (D : st_left s2 = st_left s1 \/ st_left s2 = st_left s1 ++ [a]).
  { repeat match type of H2 with
    | bind ?x _ = Ok _ => destruct x; [cbn [bind] in H2|discriminate]
    | (if ?x then _ else _) = Ok _ => destruct x
    | match ?x with [] => _ | _ :: _ => _ end = Ok _ => destruct x
    | Ok _ = Ok _ => injection H2 as <-; cbn [st_left]; auto
    end. }
  destruct D as [-> | ->]; [exact H1|]. intros x Hx. apply in_app_or in Hx as [Hx|[<-|[]]]; [now apply H1|exact Hin].
Qed.
Lemma loop_ok : forall fuel ts d, length ts <= fuel -> (cf_use_sub c = true -> plain_subs ts) -> succeeds (loop fuel ts d).
Proof using chunks_ok all_ok.
  induction fuel as [|f IH]; intros [|a ts] d Hl Hs; cbn [length] in Hl; try (eexists; reflexivity); [lia|]. unfold loop. cbn [annotate_loop].
  destruct (process_targets_ok (a :: ts) d Hs) as [s E]. rewrite E. cbn [bind]. destruct (Nat.eqb_spec (length (st_left s)) (length (a :: ts))) as [e|e]; [eexists; reflexivity|].
  apply IH.
  - pose proof (process_left _ _ _ _ _ _ _ _ _ _ _ _ E) as L. cbn [length] in *. lia.
  - intros Hu x nv Hx. apply (Hs Hu). now apply (left_in _ _ _ E).
Qed.
(** the loop, once it ends, does not depend on the bound *)
Lemma loop_more : forall n m ts d d', n <= m -> loop n ts d = Ok d' -> loop m ts d = Ok d'.
Proof using.
  induction n as [|n IH]; intros m [|a ts] d d' Hm H; unfold loop in *.
  - destruct m; exact H.
  - discriminate H.
  - destruct m; exact H.
  - destruct m as [|m]; [lia|]. cbn [annotate_loop] in *. destruct (process_targets _ _ _ _ _ _ _ _ _ _ _) as [s|]; [|exact H]. cbn [bind] in *.
    destruct (Nat.eqb _ _); [exact H|]. apply IH; [lia|exact H].
Qed.
End Simple.

(* ---------------------------------------------------------------- *)
(** ** The complex matcher: the bound *)
Section Complex.
Variables (sp alpha : N -> bool) (lower : str -> str) (blocks : str -> str -> res (list block)) (sf cf : fm_filter) (gap : Z) (prefix : bool).
Lemma target_loop_more : forall n m a v d cm f mt r, n <= m ->
  target_loop sp alpha lower blocks sf cf gap prefix n a v d cm f mt = Ok r ->
  target_loop sp alpha lower blocks sf cf gap prefix m a v d cm f mt = Ok r.
Proof.
  induction n as [|n IH]; intros m a v d cm f mt r Hm H; [discriminate H|]. destruct m as [|m]; [lia|]. cbn [target_loop] in *.
  destruct (find_next _ _ _ _ _ _ _ _ _ _ _ _ _) as [[[fd mt'] f']|]; [|exact H]. cbn [bind] in *.
  destruct (sorted_matches fd) as [|x ms]; [exact H|].
  match goal with |- context [bind ?x _] => destruct x as [d1|]; [cbn [bind] in *|exact H] end.
  match goal with |- context [bind ?x _] => destruct x as [[d2 cm2]|]; [cbn [bind] in *|exact H] end.
  destruct (ma_multiple a); [|exact H]. apply IH; [lia|exact H].
Qed.
Lemma matching_more n m ts d d' : n <= m ->
  matching_annotate sp alpha lower blocks sf cf gap prefix n ts d = Ok d' -> matching_annotate sp alpha lower blocks sf cf gap prefix m ts d = Ok d'.
Proof.
  intros Hm. unfold matching_annotate. destruct (sequences sp alpha lower d) as [seqs|]; [|auto]. cbn [bind].
  generalize (d, @None (mann * list smatch), @nil (str * list Z)). induction ts as [|a ts IH]; intros st; [auto|]. cbn [foldM].
  destruct (target_step sp alpha lower blocks sf cf gap prefix n seqs st a) as [st'|] eqn:E; [|discriminate].
  assert (E' : target_step sp alpha lower blocks sf cf gap prefix m seqs st a = Ok st').
  { unfold target_step in *. destruct st as [[d0 cm0] mm0]. destruct (njstr_value _ _ _) as [v|]; [|discriminate]. cbn [bind] in *.
    destruct (target_loop _ _ _ _ _ _ _ _ n _ _ _ _ _ _) as [r|] eqn:El; [|discriminate]. apply (target_loop_more n m) in El; [|exact Hm]. rewrite El. exact E. }
  rewrite E'. cbn [bind]. apply IH.
Qed.
End Complex.

(* ---------------------------------------------------------------- *)
(** ** All annotators *)
(** the result does not depend on the bound of the loops, if that is large enough *)
Definition settles {A} (r : nat -> res A) : Prop := exists x n, forall m, n <= m -> r m = Ok x.
Lemma settles_bind {A B} (r : nat -> res A) (f : nat -> A -> res B) : settles r -> (forall x, settles (fun n => f n x)) ->
  settles (fun n => do x <- r n ;; f n x).
Proof.
  intros (x & n & H) Hf. destruct (Hf x) as (y & k & Hy). exists y, (n + k). intros m Hm. rewrite H by lia. cbn [bind]. apply Hy. lia.
Qed.
Lemma settles_ok {A} (x : A) : settles (fun _ => Ok x).
Proof. exists x, 0. reflexivity. Qed.
Lemma settles_const {A} (r : res A) : succeeds r -> settles (fun _ => r).
Proof. intros [x ->]. apply settles_ok. Qed.
(** the annotator with another bound *)
Definition set_fuel (n : nat) (a : annotator) : annotator :=
  match a with
  | ASimple c _ ts => ASimple c n ts
  | ASubTagOnly c _ ts => ASubTagOnly c n ts
  | AMatching sf cf gap p _ ts => AMatching sf cf gap p n ts
  | _ => a
  end.
(** what an annotator needs *)
Definition able (b : libs) (a : annotator) : Prop :=
  match a with
  | ASimple c _ ts | ASubTagOnly c _ ts => cf_use_sub c = true -> plain_subs ts
  | AMatching sf cf _ _ _ _ => filter_total sf /\ filter_total cf
  | ALineNumbers c => exists below, c_threshold c = TNumber below /\ (0 < c_min c)%Z
  | AReferences c => forall f, In f (prefix_fields (lb_ref_regexes b) (rc_prefix c)) -> dict_get f (lb_ref_regexes b) <> None
  | _ => True
  end.
Section All.
Variable b : libs.
Hypothesis Hb : searches b.
Lemma simple_settles c so ts d : (cf_use_sub c = true -> plain_subs ts) ->
  settles (fun n => simple_annotate (lb_sp b) (lb_wd b) (lb_lower b) (lb_escape b) (lb_re_search b) (lb_chunks b) (lb_all b) c so n ts d).
Proof using Hb.
  intros H. unfold simple_annotate. apply settles_bind; [|intros; apply settles_ok]. destruct Hb as (H1 & H2 & _).
  destruct (loop_ok (lb_sp b) (lb_wd b) (lb_lower b) (lb_escape b) (lb_re_search b) (lb_chunks b) (lb_all b) c so H1 H2 (length ts) ts d (le_n _) H) as [d' E].
  exists d', (length ts). intros m Hm. eapply loop_more; [exact Hm|exact E].
Qed.
Lemma one_settles a d : able b a -> settles (fun n => annotate_one b (set_fuel n a) d).
Proof using Hb.
  intros Ha. destruct a; cbn [set_fuel annotate_one able] in *; try apply settles_ok.
  - now apply simple_settles.
  - unfold sub_tag_annotate. apply settles_bind; [now apply simple_settles|intros; apply settles_ok].
  - destruct Ha as [A1 A2]. destruct Hb as (_ & _ & H3).
    destruct (C54_total (lb_sp b) (lb_alpha b) (lb_lower b) (lb_blocks b) seq_filter choice_filter max_gap begin_prefix H3 A1 A2 (S (length (concat d))) targets d) as [d' E]; [lia|].
    exists d', (S (length (concat d))). intros m Hm. eapply matching_more; [exact Hm|exact E].
  - destruct Ha as (below & A1 & A2). destruct (C18_tagged (lb_sp b) (lb_int b) c below d A1 (or_introl A2)) as (d' & E & _).
    apply settles_const. now exists d'.
  - apply settles_const. now apply C65_total.
Qed.
Lemma all_settles l : forall d, (forall a, In a l -> able b a) -> settles (fun n => annotate_all b (map (set_fuel n) l) d).
Proof using Hb.
  unfold annotate_all. induction l as [|a l IH]; intros d H; cbn [map foldM]; [apply settles_ok|].
  apply (settles_bind (fun n => annotate_one b (set_fuel n a) d) (fun n d' => foldM (fun d a => annotate_one b a d) d' (map (set_fuel n) l))).
  - apply one_settles, H. now left.
  - intros d'. apply IH. intros. apply H. now right.
Qed.
End All.

(* ---------------------------------------------------------------- *)
(** ** The commands *)
Lemma command_fuel c o i n : command_annotators c o (with_fuel n i) = map (set_fuel n) (command_annotators c o i).
Proof.
  assert (D : forall c, default_annotators c o (with_fuel n i) = map (set_fuel n) (default_annotators c o i)).
  { intros c'. unfold default_annotators, opt_list. destruct (o_line_numbers o), (o_simple o); reflexivity. }
  assert (S : forall c p, sub_tag_annotators c o (with_fuel n i) p = set_fuel n (sub_tag_annotators c o i p)).
  { intros c' p. unfold sub_tag_annotators. cbv zeta. destruct (o_segment o); reflexivity. }
  destruct c; cbn [command_annotators]; unfold opt_list.
  - apply D.
  - rewrite map_app, D. reflexivity.
  - destruct (o_previous o), (o_following o); reflexivity.
  - now rewrite S.
  - now rewrite S.
  - rewrite S. destruct (o_remove o); reflexivity.
  - apply D.
  - rewrite S. destruct (o_remove o); reflexivity.
Qed.
Lemma command_able c b o i : proper c b o i -> forall a, In a (command_annotators c o i) -> able b a.
Proof.
  intros (P1' & P2 & P3 & P4) a.
  assert (P1 : is_simple c o = true -> uses_sub c = true -> plain_subs (in_targets i)) by (intros A B; apply P1'; [exact A|split; intros ->; discriminate]). clear P1'.
  assert (D : with_defaults c = true -> In a (default_annotators c o i) -> able b a).
  { intros Hc Hin. unfold is_simple in *. rewrite Hc in *. cbn [negb orb] in *. unfold default_annotators in Hin. apply in_app_or in Hin as [Hin|[<-|[]]].
    - unfold opt_list in Hin. destruct (o_line_numbers o); [|easy]. destruct Hin as [<-|[]]. destruct (P3 eq_refl eq_refl) as [Hr Hm].
      cbn [able]. unfold cli_config. rewrite Hr. exists (in_below i). now split.
    - destruct (o_simple o); cbn [able]; [|now apply P2]. cbn [simple_config cf_use_sub]. now apply P1. }
  assert (S : forall p, is_simple c o = true -> able b (sub_tag_annotators c o i p)).
  { intros p Hc. unfold sub_tag_annotators. cbv zeta. destruct (o_segment o); cbn [able simple_config cf_use_sub]; now apply P1. }
  destruct c; cbn [command_annotators]; unfold opt_list.
  - now apply D.
  - intros Hin. apply in_app_or in Hin as [Hin|[<-|[]]]; [now apply D|exact I].
  - intros Hin. apply in_app_or in Hin as [[<-|[<-|[<-|[]]]]|Hin]; try exact I; [cbn [able simple_config cf_use_sub]; now apply P1|].
    apply in_app_or in Hin as [Hin|Hin]; [destruct (o_previous o)|destruct (o_following o)]; destruct Hin as [<-|[]] || destruct Hin; exact I.
  - intros [<-|[]]. now apply S.
  - intros [<-|[]]. now apply S.
  - intros Hin. apply in_app_or in Hin as [[<-|[<-|[]]]|Hin]; [now apply S| |].
    + cbn [able reference_config rc_prefix prefix_fields]. intros f Hf. destruct (o_idno_prefix o) eqn:E; [|easy]. now apply P4.
    + destruct (o_remove o); destruct Hin as [<-|[]] || destruct Hin; exact I.
  - now apply D.
  - intros Hin. apply in_app_or in Hin as [[<-|[]]|Hin]; [now apply S|]. apply in_app_or in Hin as [Hin|[<-|[]]]; [|exact I].
    destruct (o_remove o); destruct Hin as [<-|[]] || destruct Hin; exact I.
Qed.
(** A result is the result for every larger bound. *)
Theorem C87_bound : forall c b up lo xm o i root n m d', n <= m ->
  command_document c b up lo xm o (with_fuel n i) root = Ok d' -> command_document c b up lo xm o (with_fuel m i) root = Ok d'.
Proof.
  intros c b up lo xm o i root n m d' Hm. unfold command_document, annotated_document. destruct (load_document _ _ _ _ _ _ _ _) as [d|]; [|auto]. cbn [bind].
  rewrite !command_fuel. unfold annotate_all. generalize (prepare_document (lb_sp b) (ao_always (command_options c o)) (ao_preserve (command_options c o))
    (ao_fields (command_options c o)) (ao_preserve_sub (command_options c o)) (ao_no_sub (command_options c o)) d).
  induction (command_annotators c o i) as [|a l IH]; intros d0; cbn [map foldM]; [auto|].
  destruct (annotate_one b (set_fuel n a) d0) as [d1|] eqn:E; [|discriminate].
  assert (E' : annotate_one b (set_fuel m a) d0 = Ok d1); [|rewrite E'; cbn [bind]; apply IH].
  destruct a; cbn [set_fuel annotate_one] in *; try exact E.
  - unfold simple_annotate in *. match type of E with bind ?x _ = _ => destruct x as [d2|] eqn:E2; [|discriminate] end.
    apply (loop_more _ _ _ _ _ _ _ _ _ n m) in E2; [|exact Hm]. rewrite E2. exact E.
  - unfold sub_tag_annotate, simple_annotate in *. match type of E with context [annotate_loop ?a1 ?a2 ?a3 ?a4 ?a5 ?a6 ?a7 ?a8 ?a9 n ?x ?y] => destruct (annotate_loop a1 a2 a3 a4 a5 a6 a7 a8 a9 n x y) as [d2|] eqn:E2; [|discriminate] end.
    apply (loop_more _ _ _ _ _ _ _ _ _ n m) in E2; [|exact Hm]. rewrite E2. exact E.
  - now apply (matching_more _ _ _ _ _ _ _ _ n m).
Qed.
(** Given a source that can be loaded (C56), every command annotates it: there is one
    document, whatever the bound of the loops, if it is large enough. *)
Theorem C87_annotates : forall c b up lo xm o i root,
  searches b -> proper c b o i -> forallb loadable (find_all (container c) root) = true ->
  exists d' n, forall m, n <= m -> command_document c b up lo xm o (with_fuel m i) root = Ok d'.
Proof.
  intros c b up lo xm o i root Hb Hp Hl. unfold command_document, annotated_document, load_document.
  destruct (proj2 (C56_loads_iff (lb_sp b) (lb_wd b) up lo (command_mapping (lb_wd b) c (snd (command_fields c xm o))) true (find_all (container c) root)) Hl) as [d E].
  rewrite E. cbn [bind]. set (d0 := prepare_document _ _ _ _ _ _ d). destruct (all_settles b Hb (command_annotators c o i) d0 (command_able c b o i Hp)) as (d' & n & H).
  exists d', n. intros m Hm. rewrite command_fuel. now apply H.
Qed.
(** Exactly the sources that can be loaded are annotated. *)
Theorem C87_loads_iff : forall c b up lo xm o i root, searches b -> proper c b o i ->
  (exists n d', command_document c b up lo xm o (with_fuel n i) root = Ok d') <-> forallb loadable (find_all (container c) root) = true.
Proof.
  intros c b up lo xm o i root Hb Hp. split.
  - intros (n & d' & H). unfold command_document, annotated_document, load_document in H.
    match type of H with bind ?x _ = _ => destruct x as [d|] eqn:E; [|discriminate] end.
    eapply (proj1 (C56_loads_iff _ _ _ _ _ _ _)). eexists. exact E.
  - intros Hl. destruct (C87_annotates c b up lo xm o i root Hb Hp Hl) as (d' & n & H). exists n, d'. apply H. lia.
Qed.
(** ... and, with plain names (C80), the annotated tree is saved. *)
Theorem C87_saves : forall c b up lo node_ok xm o i root,
  searches b -> proper c b o i -> forallb loadable (find_all (container c) root) = true ->
  ascii_right (lb_wd b) -> accepts_usual node_ok -> find_all (container c) root <> [] ->
  (forall f, In f (snd (command_fields c xm o)) -> In f (map fst (base_mapping c)) \/ plain_field f) ->
  (forall e x, In e (find_all (container c) root) -> below e x -> plain_elem node_ok x) ->
  (forall n, In n (input_names i) -> plain_tag (command_mapping (lb_wd b) c (snd (command_fields c xm o))) n) ->
  exists r n, forall m, n <= m -> command_tree c b up lo node_ok xm o (with_fuel m i) root = Ok r.
Proof.
  intros c b up lo node_ok xm o i root Hb Hp Hl Hw Ha Hc Hf Hpl Hn.
  destruct (C87_annotates c b up lo xm o i root Hb Hp Hl) as (d' & n & H).
  destruct (C80_commands c b up lo node_ok xm o (with_fuel n i) root d' Hw Ha (H n (le_n _)) Hc Hf Hpl Hn) as [r E].
  exists r, n. intros m Hm. rewrite <- E. unfold command_tree, annotated_tree.
  specialize (H m Hm) as H1. specialize (H n (le_n _)) as H2. unfold command_document in H1, H2. now rewrite H1, H2.
Qed.

(** The searches of the code do not fail, if the sequence matchers keep their contract
    (C30, C32), the threshold is positive. *)
Theorem C87_searches : forall lsm words th b, lsm_ok lsm -> words_ok words -> (0 < th)%Q -> searches (with_searches lsm words th b).
Proof.
  intros lsm words th b Hl Hw Ht. split; [|split]; cbn [with_searches lb_chunks lb_all lb_blocks].
  - intros h n mc. unfold fuzzy_search_index_range_chunks.
    destruct (C32_search lsm words (lb_alpha b) Hl Hw (S (length h)) h n th 5 mc 0 None) as [r ->]; [lia|unfold slen; lia|discriminate|].
    cbn [bind]. eexists. reflexivity.
  - intros h n. destruct (C33_ranges lsm words (lb_alpha b) Hl Hw (S (length h)) h n th 5 1 None 0) as (l & -> & _); [exact Ht|lia|lia|unfold slen; lia|discriminate|].
    rewrite Forall_map. apply Forall_forall. intros m _. eexists. reflexivity.
  - intros x y. destruct (_ <? _)%Z.
    + destruct (C30_blocks words default_separators x y Hw) as (l & E & V & _). exists l. now split.
    + exists (lsm x y). split; [reflexivity|]. apply Hl.
Qed.

(* ---------------------------------------------------------------- *)
(** ** Examples *)
Definition real_libs : libs := with_searches prefix_lsm PropWordMatch.first_word (8 # 10)
  (mkLibs ascii_space ascii_word ascii_alpha ascii_digit lower_ascii (fun s => s) ascii_int no_regex exact_chunks exact_all ex_blocks no_regex []).
Definition plain_inputs (targets : list tann) (complex : list mann) : inputs :=
  mkInputs targets complex [] (mkSegConfig [] 0 0 false) half DEFAULT_SEQ_FILTER DEFAULT_CHOICE_FILTER DEFAULT_MAX_MATCH_GAP 0.
Definition numbered_source : xml :=
  Elem (u "tei") [] [] [Elem (u "text") [] [] [Elem (u "front") [] (u "1 About things")
    [Elem (u "lb") [] [] [] (u "2 a study"); Elem (u "lb") [] [] [] (u "3 of stones")] []] []] [].
Definition header_opts (simple : bool) (ratio : ostr) (min : Z) : cmd_options :=
  mkOpts [u "title"] [] [] false [] [] false [] simple 200 true (mkCli min 3 ratio) false false false false false false false.
(** all annotators of the header command, with the simple and with the complex matcher *)
Definition header_inputs : inputs := plain_inputs [mkTann (u "title") (VOne (u "About things")) [(u "x", VMany [])]] [title "About things"].
Example C87_ex : forall simple, exists d',
  searches real_libs /\ proper CHeader real_libs (header_opts simple None 2) header_inputs /\
  forallb loadable (find_all (container CHeader) numbered_source) = true /\
  (forall m, 100 <= m -> command_document CHeader real_libs ascii_upper ascii_lower [] (header_opts simple None 2) (with_fuel m header_inputs) numbered_source = Ok d') /\
  map (map tag) d' = [[Some (u "line_no"); None; Some (u "b-title"); None; Some (u "i-title")];
                      [Some (u "line_no"); None; None; None; None]; [Some (u "line_no"); None; None; None; None]].
Proof.
  intros simple.
  assert (S : searches real_libs) by (apply C87_searches; [exact prefix_lsm_ok|exact C30_ex_ok|reflexivity]).
  assert (P : proper CHeader real_libs (header_opts simple None 2) header_inputs).
  { split; [intros _ [G _]; now destruct G|]. split; [intros _; split; apply default_filter_total|]. split; [intros _ _; now split|discriminate]. }
  assert (E : exists d', command_document CHeader real_libs ascii_upper ascii_lower [] (header_opts simple None 2) (with_fuel 100 header_inputs) numbered_source = Ok d' /\
    map (map tag) d' = [[Some (u "line_no"); None; Some (u "b-title"); None; Some (u "i-title")];
                      [Some (u "line_no"); None; None; None; None]; [Some (u "line_no"); None; None; None; None]]).
  { destruct simple; eexists; (split; [vm_compute; reflexivity|]); vm_compute; reflexivity. }
  destruct E as (d' & E1 & E2). exists d'. split; [exact S|]. split; [exact P|]. split; [reflexivity|]. split; [|exact E2].
  intros m Hm. exact (C87_bound _ _ _ _ _ _ _ _ 100 m _ Hm E1).
Qed.
(** a figure with its label *)
Example C87_ex_saved : exists r,
  command_tree CFigure real_libs ascii_upper ascii_lower usual [] (ex_opts [u "figure"]) (with_fuel 9 (plain_inputs ex_fig_targets [])) ex_figures = Ok r /\
  proper CFigure real_libs (ex_opts [u "figure"]) (plain_inputs ex_fig_targets []) /\
  forallb loadable (find_all (container CFigure) ex_figures) = true.
Proof.
  eexists. split; [vm_compute; reflexivity|]. split; [|reflexivity]. split; [|split; [discriminate|split; discriminate]].
  intros _ _ a nv [<-|[]] [<-|[]]. eexists. reflexivity.
Qed.

(* ---------------------------------------------------------------- *)
(** ** What is needed *)
(** With the ratio option, line numbers are never found: the command raises an exception
    for every source with enough of them (C18_ratio_option_refuted). *)
Theorem C87_ratio_refuted : exists o root, searches real_libs /\ o_ratio (o_line_cli o) <> None /\
  forallb loadable (find_all (container CHeader) root) = true /\
  forall m, command_document CHeader real_libs ascii_upper ascii_lower [] o (with_fuel m header_inputs) root = Err TypeError.
Proof.
  exists (header_opts true (Some (u "0.5")) 2), numbered_source. split; [apply C87_searches; [exact prefix_lsm_ok|exact C30_ex_ok|reflexivity]|].
  split; [discriminate|]. split; [reflexivity|]. intros m. vm_compute. reflexivity.
Qed.
(** With a minimum of zero, an empty source cannot be annotated. *)
Theorem C87_minimum_refuted : exists root, searches real_libs /\ forallb loadable (find_all (container CHeader) root) = true /\
  forall m, command_document CHeader real_libs ascii_upper ascii_lower [] (header_opts true None 0) (with_fuel m header_inputs) root = Err ZeroDivisionError.
Proof.
  exists (Elem (u "tei") [] [] [Elem (u "text") [] [] [Elem (u "front") [] [] [] []] []] []).
  split; [apply C87_searches; [exact prefix_lsm_ok|exact C30_ex_ok|reflexivity]|]. split; [reflexivity|]. intros m. vm_compute. reflexivity.
Qed.
(** A sub annotation with several values (from [extract-regex]) ends the command, if its
    parent is found. *)
Theorem C87_values_refuted : exists ts, searches real_libs /\ 
  (forall m, 1 <= m -> command_document CFigure real_libs ascii_upper ascii_lower [] (ex_opts [u "figure"]) (with_fuel m (plain_inputs ts [])) ex_figures = Err AssertionError).
Proof.
  exists [mkTann (u "figure") (VOne (u "Fig 1")) [(u "figure-label", VMany [u "1"; u "Fig 1"])]].
  split; [apply C87_searches; [exact prefix_lsm_ok|exact C30_ex_ok|reflexivity]|]. intros [|m] Hm; [lia|]. vm_compute. reflexivity.
Qed.
(** A field to extend by its prefix needs a regular expression. *)
Theorem C87_prefix_refuted : exists c d, searches real_libs /\ 
  annotate_one real_libs (AReferences c) d = Err KeyError.
Proof.
  exists (mkRefConfig [] [] (Some [u "reference-doi"]) [] (u "reference-etal") []),
    [[mkTok (u "doi") (Some (u "b-reference")) None None None None; mkTok (u "10") (Some (u "i-reference")) (Some (u "b-reference-doi")) None None None]].
  split; [apply C87_searches; [exact prefix_lsm_ok|exact C30_ex_ok|reflexivity]|]. vm_compute. reflexivity.
Qed.

Print Assumptions C87_annotates.
Print Assumptions C87_loads_iff.
Print Assumptions C87_bound.
Print Assumptions C87_saves.
Print Assumptions C87_searches.
Print Assumptions C87_ratio_refuted.
Print Assumptions C87_minimum_refuted.
Print Assumptions C87_values_refuted.
Print Assumptions C87_prefix_refuted.
