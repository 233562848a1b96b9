(** C72, C73: what the simple matcher marks, and what it leaves *)
From Coq Require Import Sorting.Sorted.
From Verif Require Import Base ModelTags ProofTags ModelTokenize ModelTei ModelTeiDoc SpecTeiWrite SpecTeiDoc ProofTeiDoc PropTeiDoc
  ModelJoined PropJoined ModelExtend PropExtend ModelClusters PropClusters ModelTarget ModelReference PropReferenceDoc ModelSimpleMatch PropSimpleMatch.
Open Scope nat_scope.

(* ---------------------------------------------------------------- *)
(** ** Specification *)
(** reading order of positions *)
Definition ahead (p q : pos) : Prop := fst p < fst q \/ fst p = fst q /\ snd p < snd q.
Definition in_order (ps : list pos) : Prop := StronglySorted ahead ps.
(** the tag of a field for the first and for the other words *)
Definition mark_tag (c : config) (first : bool) (name : str) : str :=
  match name with [] => [] | _ => if cf_begin_prefix c then (if first then u "b-" else u "i-") ++ name else name end.
(** the words [hits] are marked and nothing else is changed *)
Definition marked (c : config) (lv : level) (name : str) (hits : list pos) (d d' : doc) : Prop :=
  forall q, match tok_at d q with
            | None => tok_at d' q = None
            | Some t => exists t', tok_at d' q = Some t' /\ same_text t t' /\
                (forall lv', lv' <> lv -> given lv' t' = given lv' t) /\
                (~ In q hits -> given lv t' = given lv t) /\
                (forall h hs, hits = h :: hs -> (q = h -> given lv t' = Some (mark_tag c true name)) /\
                                                (In q hs -> given lv t' = Some (mark_tag c false name)))
            end.
(** the tokens of a text that overlap a range of characters *)
Definition in_range (text : list (seqw pos)) (r : irange) : list pos :=
  map (fun p => w_tok (fst p)) (filter (fun p => overlaps (snd p) r) (all_placed [10%N] text)).

Section Spec.
Variable sp wd : N -> bool.
Variable lower escape_re : str -> str.
Variable re_search : str -> str -> option Z.
Variable search_chunks : str -> str -> nat -> res (option (list irange)).
Variable search_all : str -> str -> list (res irange).
Variable c : config.
Variable sub_only : bool.

(** a word without tag *)
Definition free_word (d : doc) (p : pos) : Prop :=
  exists t, tok_at d p = Some t /\ blank sp (tx t) = false /\ truthy (tag t) = false.
(** the normalised text of these words *)
Definition words_text (d : doc) (qs : list (list pos)) : list (seqw pos) := map (wrap sp (normalise lower) d) qs.

(** *** Searching *)
(** short values: line feeds count as spaces *)
Definition haystack_for (needle text : str) : str :=
  if Nat.ltb (length (normalise_str lower needle)) (cf_exact c) then py_replace [10%N] (u " ") text else text.
Definition hits_of (text needle : str) (k : nat) (rs : list irange) : Prop :=
  rs <> [] /\ search_chunks text needle k = Ok (Some rs).
Definition no_hits (text needle : str) (k : nat) : Prop :=
  search_chunks text needle k = Ok None \/ search_chunks text needle k = Ok (Some []).
(** a value is searched as it is, then with its words joined by spaces; short values never *)
Definition needle_found (text needle : str) (k : nat) (rs : list irange) : Prop :=
  cf_min_token_length c <= length needle /\
  (hits_of (haystack_for needle text) (normalise_str lower needle) k rs \/
   no_hits (haystack_for needle text) (normalise_str lower needle) k /\
   hits_of (haystack_for needle text) (split_and_join sp wd (normalise_str lower needle)) k rs).
Definition needle_missing (text needle : str) (k : nat) : Prop :=
  length needle < cf_min_token_length c \/
  no_hits (haystack_for needle text) (normalise_str lower needle) k /\
  no_hits (haystack_for needle text) (split_and_join sp wd (normalise_str lower needle)) k.
(** then its alternative spellings in their order *)
Definition spellings_of (a : tann) (v : str) : list str :=
  match dict_get v (tc_spellings (get_tag_config c (an_name a))) with Some l => l | None => [] end.
Definition value_found (text : str) (a : tann) (v : str) (k : nat) (rs : list irange) : Prop :=
  exists before n after, v :: spellings_of a v = before ++ n :: after /\
    Forall (fun m => needle_missing text m k) before /\ needle_found text n k rs.
Definition value_missing (text : str) (a : tann) (v : str) (k : nat) : Prop :=
  Forall (fun m => needle_missing text m k) (v :: spellings_of a v).
(** one of several values: from the first to the last chunk *)
Inductive values_found (text : str) (a : tann) : list str -> list irange -> Prop :=
| vf_nil : values_found text a [] []
| vf_found v vs x l rs : value_found text a v 1 (x :: l) -> values_found text a vs rs ->
    values_found text a (v :: vs) ((fst x, snd (last (x :: l) x)) :: rs)
| vf_missing v vs rs : value_missing text a v 1 -> values_found text a vs rs -> values_found text a (v :: vs) rs.
Definition annotation_found (text : str) (a : tann) (rs : list irange) : Prop :=
  match an_value a with
  | VOne v => value_found text a v (tc_max_chunks (get_tag_config c (an_name a))) rs
  | VMany vs => exists all sel unsel s e, values_found text a vs all /\ all <> [] /\
      select_index_ranges all = Ok (sel, unsel) /\ rs = [(s, e)] /\
      Forall (fun r => s <= fst r /\ snd r <= e)%Z sel /\ Exists (fun r => fst r = s) sel /\ Exists (fun r => snd r = e) sel
  end.
Definition annotation_missing (text : str) (a : tann) : Prop :=
  match an_value a with
  | VOne v => value_missing text a v (tc_max_chunks (get_tag_config c (an_name a)))
  | VMany vs => values_found text a vs []
  end.

(** *** Marking *)
(** the range with the prefix: only its start may change, to where the pattern of the field
    is found in the text before it *)
Definition prefixed (text : list (seqw pos)) (a : tann) (r0 r : irange) : Prop :=
  snd r = snd r0 /\
  (fst r = fst r0 \/
   exists pattern, tc_prefix_regex (get_tag_config c (an_name a)) = Some pattern /\ pattern <> [] /\ (0 < fst r0)%Z /\
     re_search (resolve_placeholders escape_re pattern (placeholders (an_subs a)))
               (firstn (Z.to_nat (fst r0)) (text_of text)) = Some (fst r)).
(** a sub annotation: the first of the ranges found in which no word has a sub tag *)
Definition taken (d : doc) (text : list (seqw pos)) (r : irange) : Prop :=
  exists p, In p (in_range text r) /\ truthy (sub_tag d p) = true.
Definition sub_marked (text : list (seqw pos)) (nv : str * tvalue) (d d' : doc) : Prop :=
  exists v, snd nv = VOne v /\
    ((exists rs, search_all (lower (text_of text)) (lower v) = map Ok rs /\ Forall (taken d text) rs /\ d' = d) \/
     (exists before r after, search_all (lower (text_of text)) (lower v) = map Ok before ++ Ok r :: after /\
        Forall (taken d text) before /\ ~ taken d text r /\ marked c LSub (fst nv) (in_range text r) d d')).
Inductive subs_marked (text : list (seqw pos)) : list (str * tvalue) -> doc -> doc -> Prop :=
| sm_nil d : subs_marked text [] d d
| sm_cons nv subs d d1 d' : sub_marked text nv d d1 -> subs_marked text subs d1 d' -> subs_marked text (nv :: subs) d d'.
(** one range *)
Definition range_marked (text : list (seqw pos)) (a : tann) (r0 : irange) (d d' : doc) : Prop :=
  exists r d1, prefixed text a r0 r /\
    (if sub_only then d1 = d
     else marked c LMain (an_name a) (filter (fun p => negb (truthy (main_tag d p))) (in_range text r)) d d1) /\
    (if cf_use_sub c then subs_marked [wrap sp (fun s => s) d (in_range text r)] (an_subs a) d1 d' else d' = d1).
Inductive ranges_marked (text : list (seqw pos)) (a : tann) : list irange -> doc -> doc -> Prop :=
| rm_nil d : ranges_marked text a [] d d
| rm_cons r rs d d1 d' : range_marked text a r d d1 -> ranges_marked text a rs d1 d' -> ranges_marked text a (r :: rs) d d'.
(** an annotation that is found in the text of words without tag, in reading order *)
Definition annotation_marked (a : tann) (d d' : doc) : Prop :=
  exists qs rs, in_order (concat qs) /\ Forall (free_word d) (concat qs) /\
    annotation_found (text_of (words_text d qs)) a rs /\ ranges_marked (words_text d qs) a rs d d'.
(** the annotations in their order: each is marked or left *)
Inductive round : list tann -> doc -> list tann -> doc -> Prop :=
| round_nil d : round [] d [] d
| round_mark a l d d1 left d' : annotation_marked a d d1 -> round l d1 left d' -> round (a :: l) d left d'
| round_leave a l d left d' : round l d left d' -> round (a :: l) d (a :: left) d'.
(** rounds with the annotations left *)
Inductive rounds : list tann -> doc -> list tann -> doc -> Prop :=
| rounds_done l d : rounds l d l d
| rounds_more l d left d1 left' d' : round l d left d1 -> rounds left d1 left' d' -> rounds l d left' d'.
(** all words without tag, in reading order, line by line *)
Definition untagged_words (d : doc) (qs : list (list pos)) : Prop :=
  in_order (concat qs) /\ (forall p, In p (concat qs) <-> free_word d p) /\ Forall (fun q => q <> []) qs /\
  (forall i j q q' p p', nth_error qs i = Some q -> nth_error qs j = Some q' -> In p q -> In p' q' -> (fst p = fst p' <-> i = j)).
End Spec.

(* ---------------------------------------------------------------- *)
(** ** Lists *)
Lemma sorted_sub {A} (R : A -> A -> Prop) {B} (f : B -> list A) (g : B -> bool) l :
  StronglySorted R (concat (map f l)) -> StronglySorted R (concat (map f (filter g l))).
Proof.
  assert (D : forall a b : list A, StronglySorted R (a ++ b) <->
    StronglySorted R a /\ StronglySorted R b /\ forall x y, In x a -> In y b -> R x y).
  { clear. induction a as [|x a IH]; intros b.
    - cbn. split; [intros H; split; [constructor|split; [exact H|easy]]|intros (_ & H & _); exact H].
    - cbn [app]. split.
      + intros H. inversion H as [|? ? H1 H2]; subst. apply IH in H1 as (I1 & I2 & I3). apply Forall_app in H2 as [H2 H3].
        split; [constructor; assumption|]. split; [exact I2|]. intros y z [<-|Hy] Hz; [rewrite Forall_forall in H3; auto|auto].
      + intros (H1 & H2 & H3). inversion H1 as [|? ? I1 I2]; subst. constructor.
        * apply IH. split; [exact I1|]. split; [exact H2|]. intros y z Hy. apply H3. now right.
        * apply Forall_app. split; [exact I2|]. apply Forall_forall. intros z Hz. apply H3; [now left|exact Hz]. }
  induction l as [|b l IH]; cbn [map concat filter]; intros H; [exact H|].
  apply D in H as (H1 & H2 & H3). destruct (g b); [|auto]. cbn [map concat]. apply D. split; [exact H1|]. split; [auto|].
  intros x y Hx Hy. apply H3; [exact Hx|]. apply in_concat in Hy as (z & Hz & Hy). apply in_map_iff in Hz as (b' & <- & Hb).
  apply filter_In in Hb as [Hb _]. apply in_concat. exists (f b'). split; [apply in_map; exact Hb|exact Hy].
Qed.
Lemma sorted_filter {A} (R : A -> A -> Prop) (g : A -> bool) l : StronglySorted R l -> StronglySorted R (filter g l).
Proof.
  intros H. induction H as [|x l H IH Hf]; cbn [filter]; [constructor|]. destruct (g x); [|exact IH]. constructor; [exact IH|].
  rewrite Forall_forall in *. intros y Hy. apply filter_In in Hy as [Hy _]. auto.
Qed.
Lemma sorted_app_l {A} (R : A -> A -> Prop) a b : StronglySorted R (a ++ b) -> StronglySorted R a.
Proof.
  induction a as [|x a IH]; cbn [app]; intros H; [constructor|]. inversion H as [|? ? H1 H2]; subst. apply Forall_app in H2 as [H2 _]. constructor; auto.
Qed.
Lemma in_order_NoDup ps : in_order ps -> NoDup ps.
Proof.
  intros H. induction H as [|x l H IH Hf]; constructor; [|exact IH]. intros Hx. rewrite Forall_forall in Hf. specialize (Hf x Hx).
  unfold ahead in Hf. lia.
Qed.
Lemma NoDup_filter' {A} (f : A -> bool) l : NoDup l -> NoDup (filter f l).
Proof. apply NoDup_filter. Qed.

(* ---------------------------------------------------------------- *)
(** ** Marking *)
Section Fold.
Variable upd : pos -> ostr -> doc -> doc.
Variable lv : level.
Hypothesis upd_spec : forall p v d q, match tok_at d q with
  | None => tok_at (upd p v d) q = None
  | Some t => exists t', tok_at (upd p v d) q = Some t' /\ same_text t t' /\
      (forall lv', lv' <> lv -> given lv' t' = given lv' t) /\
      given lv t' = if Nat.eqb (fst p) (fst q) && Nat.eqb (snd p) (snd q) then v else given lv t
  end.
Lemma upd_fold (f : bool -> ostr) (l : list (pos * bool)) : NoDup (map fst l) -> forall d q,
  match tok_at d q with
  | None => tok_at (fold_left (fun d x => upd (fst x) (f (snd x)) d) l d) q = None
  | Some t => exists t', tok_at (fold_left (fun d x => upd (fst x) (f (snd x)) d) l d) q = Some t' /\ same_text t t' /\
      (forall lv', lv' <> lv -> given lv' t' = given lv' t) /\
      (~ In q (map fst l) -> given lv t' = given lv t) /\ (forall b, In (q, b) l -> given lv t' = f b)
  end.
Proof.
  induction l as [|[p b] l IH]; intros Hn d q.
  - cbn. destruct (tok_at d q) as [t|]; [|reflexivity]. exists t. repeat split; auto. easy.
  - cbn [map fst] in Hn. inversion Hn as [|? ? Hp Hn']; subst. cbn [fold_left fst snd]. specialize (IH Hn' (upd p (f b) d) q).
    pose proof (upd_spec p (f b) d q) as U. destruct (tok_at d q) as [t|]; [|rewrite U in IH; exact IH].
    destruct U as (t1 & E1 & S1 & O1 & G1). rewrite E1 in IH. destruct IH as (t' & E' & S' & O' & N' & I').
    exists t'. split; [exact E'|]. split; [eapply same_text_trans; eassumption|]. split; [|split].
    + intros lv' H. rewrite O' by exact H. now apply O1.
    + cbn [map fst]. intros Hq. rewrite N' by (intros H; apply Hq; now right). rewrite G1.
      destruct (Nat.eqb (fst p) (fst q) && Nat.eqb (snd p) (snd q)) eqn:Ep; [|reflexivity]. apply pos_eqb in Ep. exfalso. apply Hq. now left.
    + intros b' [[= -> ->]|Hin].
      * rewrite N' by exact Hp. rewrite G1. replace (Nat.eqb (fst q) (fst q) && Nat.eqb (snd q) (snd q)) with true by (symmetry; now apply pos_eqb).
        reflexivity.
      * now apply I'.
Qed.
End Fold.
Lemma firsts_fst {A} (l : list A) : map fst (firsts l) = l.
Proof. destruct l as [|x l]; [reflexivity|]. cbn [firsts map fst]. f_equal. rewrite map_map. cbn [fst]. apply map_id. Qed.
Lemma full_mark c name b : full_tag c name b = Some (mark_tag c b name).
Proof. unfold full_tag, mark_tag. destruct name as [|x n]; [destruct (cf_begin_prefix c), b; reflexivity|]. destruct (cf_begin_prefix c), b; reflexivity. Qed.
Lemma fold_marked c lv upd name hits d : (forall p v d q, match tok_at d q with
  | None => tok_at (upd p v d) q = None
  | Some t => exists t', tok_at (upd p v d) q = Some t' /\ same_text t t' /\
      (forall lv', lv' <> lv -> given lv' t' = given lv' t) /\
      given lv t' = if Nat.eqb (fst p) (fst q) && Nat.eqb (snd p) (snd q) then v else given lv t
  end) -> NoDup hits ->
  marked c lv name hits d (fold_left (fun d (x : pos * bool) => upd (fst x) (full_tag c name (snd x)) d) (firsts hits) d).
Proof.
  intros U Hn q. pose proof (upd_fold upd lv U (full_tag c name) (firsts hits)) as F. rewrite firsts_fst in F. specialize (F Hn d q).
  destruct (tok_at d q) as [t|]; [|exact F]. destruct F as (t' & E' & S' & O' & N' & I'). exists t'. split; [exact E'|]. split; [exact S'|].
  split; [exact O'|]. split; [exact N'|]. intros h hs ->. split.
  - intros ->. rewrite <- full_mark. apply I'. now left.
  - intros H. rewrite <- full_mark. apply I'. right. apply in_map_iff. eauto.
Qed.
Section Steps.
Variable sp wd : N -> bool.
Variable lower escape_re : str -> str.
Variable re_search : str -> str -> option Z.
Variable search_chunks : str -> str -> nat -> res (option (list irange)).
Variable search_all : str -> str -> list (res irange).
Variable c : config.
Variable sub_only : bool.

Lemma set_tag_upd lv p v d q : match tok_at d q with
  | None => tok_at (set_tag sp lv p v d) q = None
  | Some t => exists t', tok_at (set_tag sp lv p v d) q = Some t' /\ same_text t t' /\
      (forall lv', lv' <> lv -> given lv' t' = given lv' t) /\
      given lv t' = if Nat.eqb (fst p) (fst q) && Nat.eqb (snd p) (snd q) then v else given lv t
  end.
Proof.
  destruct (tok_at d q) as [t|] eqn:E; [|now apply tok_at_set_none].
  destruct (set_any sp lv p v d q t E) as (t' & E' & S' & G & _). exists t'. split; [exact E'|]. split; [exact S'|]. split.
  - intros lv' H. rewrite G. replace (lv_eqb lv lv') with false; [reflexivity|]. destruct lv, lv'; cbn; congruence.
  - rewrite G. replace (lv_eqb lv lv) with true by (destruct lv; reflexivity). reflexivity.
Qed.
Lemma set_main_upd p v d q : match tok_at d q with
  | None => tok_at (set_main sp c p v d) q = None
  | Some t => exists t', tok_at (set_main sp c p v d) q = Some t' /\ same_text t t' /\
      (forall lv', lv' <> LMain -> given lv' t' = given lv' t) /\
      given LMain t' = if Nat.eqb (fst p) (fst q) && Nat.eqb (snd p) (snd q) then v else given LMain t
  end.
Proof.
  unfold set_main. destruct (cf_preserve_sub c); [|apply set_tag_upd]. rewrite tok_at_only. destruct (tok_at d q) as [t|]; [|reflexivity].
  cbn [option_map]. eexists. split; [reflexivity|]. destruct (Nat.eqb (fst p) (fst q) && Nat.eqb (snd p) (snd q)).
  - split; [apply set_tag_only_text|]. split; [|reflexivity]. intros [|] H; [congruence|reflexivity].
  - repeat split; auto.
Qed.

(** the tokens in a range are in order if those of the text are *)
Lemma in_range_eq text r : all_tokens_between [10%N] [] text r = in_range text r.
Proof. apply (C13_tokens [10%N] text). Qed.
Lemma in_range_sorted text r : in_order (map w_tok (concat text)) -> in_order (in_range text r).
Proof.
  intros H. unfold in_range. destruct (C13_tokens [10%N] text) as (E & _ & _). rewrite <- E in H. unfold in_order in *.
  revert H. generalize (all_placed [10%N] text) as l. intros l H.
  induction l as [|x l IH]; cbn [filter map] in *; [constructor|]. inversion H as [|? ? H1 H2]; subst. destruct (overlaps (snd x) r); [|auto].
  cbn [map]. constructor; [auto|]. rewrite Forall_forall in *. intros y Hy. apply in_map_iff in Hy as (z & <- & Hz). apply filter_In in Hz as [Hz _].
  apply H2. rewrite map_map. apply in_map_iff. eauto.
Qed.
Lemma in_range_in text r p : In p (in_range text r) -> In p (map w_tok (concat text)).
Proof.
  unfold in_range. intros H. apply in_map_iff in H as (x & <- & H). apply filter_In in H as [H _]. destruct (C13_tokens [10%N] text) as (E & _ & _).
  rewrite <- E, map_map. apply in_map_iff. eauto.
Qed.

(** *** One range *)
Theorem C72_marks text r name d : in_order (map w_tok (concat text)) ->
  marked c LMain name (filter (fun p => negb (truthy (main_tag d p))) (in_range text r)) d (update_range sp c false text r name d).
Proof.
  intros H. unfold update_range. rewrite in_range_eq. apply fold_marked; [exact set_main_upd|]. apply NoDup_filter, in_order_NoDup.
  now apply in_range_sorted.
Qed.
Lemma free_marked text name rs : in_order (map w_tok (concat text)) -> forall d d', first_free sp c text name rs d = Ok d' ->
  (exists l, rs = map Ok l /\ Forall (taken d text) l /\ d' = d) \/
  (exists before r after, rs = map Ok before ++ Ok r :: after /\
        Forall (taken d text) before /\ ~ taken d text r /\ marked c LSub name (in_range text r) d d').
Proof.
  intros Ho. induction rs as [|[r|e] rs IH]; intros d d' H; cbn [first_free] in H; [| |discriminate].
  - left. exists []. injection H as <-. auto.
  - rewrite in_range_eq in H. destruct (existsb _ _) eqn:E.
    + assert (T : taken d text r) by (apply existsb_exists in E as (p & P1 & P2); exists p; auto).
      destruct (IH d d' H) as [(l & -> & F & ->)|(b & r' & a & -> & F & N & M)].
      * left. exists (r :: l). repeat split; auto.
      * right. exists (r :: b), r', a. repeat split; auto.
    + right. exists [], r, rs. injection H as <-. split; [reflexivity|]. split; [constructor|]. split.
      * intros (p & P1 & P2). assert (X : existsb (fun p => truthy (sub_tag d p)) (in_range text r) = true) by (apply existsb_exists; eauto). congruence.
      * apply fold_marked; [exact (set_tag_upd LSub)|]. apply in_order_NoDup. now apply in_range_sorted.
Qed.
Lemma prefixed_with text a r : prefixed escape_re re_search c text a r (with_prefix escape_re re_search c text r a).
Proof.
  unfold prefixed, with_prefix. destruct (tc_prefix_regex _) as [[|x p]|] eqn:E; [auto| |auto].
  destruct (Z.ltb_spec 0 (fst r)) as [Hr|Hr]; [|auto]. destruct (re_search _ _) as [s|] eqn:Es; [|auto]. split; [reflexivity|]. right.
  exists (x :: p). split; [reflexivity|]. split; [discriminate|]. auto.
Qed.
(** what is there at a position does not change but for the tags *)
Lemma at_same d d' p : (forall q, match tok_at d q with None => tok_at d' q = None | Some t => exists t', tok_at d' q = Some t' /\ same_text t t' end) ->
  match tok_at d p with None => tok_at d' p = None | Some t => exists t', tok_at d' p = Some t' /\ tx t' = tx t /\ ws t' = ws t end.
Proof. intros H. specialize (H p). destruct (tok_at d p); [|exact H]. destruct H as (t' & E & S1 & S2). eauto. Qed.
Definition same_words (d d' : doc) : Prop :=
  forall q, match tok_at d q with None => tok_at d' q = None | Some t => exists t', tok_at d' q = Some t' /\ same_text t t' end.
Lemma wrap_same f d d' ps : same_words d d' -> wrap sp f d' ps = wrap sp f d ps.
Proof.
  intros H. unfold wrap. induction ps as [|p ps IH]; [reflexivity|]. cbn [flat_map]. rewrite IH. f_equal. change (at_pos d p) with (tok_at d p). change (at_pos d' p) with (tok_at d' p).
  specialize (H p). destruct (tok_at d p) as [t|]; [|now rewrite H]. destruct H as (t' & -> & S1 & S2). now rewrite S1, S2.
Qed.
Lemma marked_same lv name hits d d' : marked c lv name hits d d' -> same_words d d'.
Proof. intros H q. specialize (H q). destruct (tok_at d q); [|exact H]. destruct H as (t' & E & S & _). eauto. Qed.
Lemma same_words_refl d : same_words d d.
Proof. intros q. destruct (tok_at d q) as [t|]; [|reflexivity]. exists t. repeat split. Qed.
Lemma same_words_trans d1 d2 d3 : same_words d1 d2 -> same_words d2 d3 -> same_words d1 d3.
Proof.
  intros H K q. specialize (H q). specialize (K q). destruct (tok_at d1 q) as [t|].
  - destruct H as (t2 & E2 & S2). rewrite E2 in K. destruct K as (t3 & E3 & S3). exists t3. split; [exact E3|]. eapply same_text_trans; eassumption.
  - rewrite H in K. exact K.
Qed.
Lemma wrap_toks f d ps : (forall p, In p ps -> tok_at d p <> None) -> map w_tok (wrap sp f d ps) = ps.
Proof.
  induction ps as [|p ps IH]; intros H; [reflexivity|]. unfold wrap in *. cbn [flat_map]. rewrite map_app, IH by (intros; apply H; now right).
  rewrite at_pos_eq. destruct (tok_at d p) as [t|] eqn:E; [reflexivity|]. exfalso. eapply H; [now left|exact E].
Qed.
Lemma range_step_marked text a d r d' : in_order (map w_tok (concat text)) -> (forall p, In p (map w_tok (concat text)) -> tok_at d p <> None) ->
  range_step sp lower escape_re re_search search_all c sub_only text a d r = Ok d' ->
  range_marked sp lower escape_re re_search search_all c sub_only text a r d d' /\ same_words d d'.
Proof.
  intros Ho Hex. unfold range_step. set (r' := with_prefix escape_re re_search c text r a).
  set (d1 := update_range sp c sub_only text r' (an_name a) d). intros H.
  assert (K : (if sub_only then d1 = d
     else marked c LMain (an_name a) (filter (fun p => negb (truthy (main_tag d p))) (in_range text r')) d d1) /\ same_words d d1).
  { unfold d1. destruct sub_only; [split; [reflexivity|apply same_words_refl]|]. pose proof (C72_marks text r' (an_name a) d Ho) as M.
    split; [exact M|eapply marked_same; exact M]. }
  destruct K as [K1 K2].
  assert (L : (if cf_use_sub c then subs_marked lower search_all c [wrap sp (fun s => s) d (in_range text r')] (an_subs a) d1 d' else d' = d1) /\ same_words d1 d').
  { destruct (cf_use_sub c); [|injection H as <-; split; [reflexivity|apply same_words_refl]].
    unfold sub_annotations in H. rewrite in_range_eq, (wrap_same _ d d1) in H by exact K2.
    assert (So : in_order (map w_tok (concat [wrap sp (fun s => s) d (in_range text r')]))).
    { cbn [concat]. rewrite app_nil_r, wrap_toks; [now apply in_range_sorted|]. intros p Hp. apply Hex. now apply in_range_in in Hp. }
    revert H So. generalize [wrap sp (fun s => s) d (in_range text r')] as st. intros st H So. clear -H So.
    assert (G : forall subs d1, foldM (sub_step sp lower search_all c st) d1 subs = Ok d' -> subs_marked lower search_all c st subs d1 d' /\ same_words d1 d').
    { clear H. induction subs as [|nv subs IH]; intros x H; cbn [foldM] in H; [injection H as <-; split; [constructor|apply same_words_refl]|].
      destruct (sub_step _ _ _ _ st x nv) as [x1|] eqn:E; [|discriminate]. cbn [bind] in H. destruct (IH x1 H) as [I1 I2].
      unfold sub_step in E. destruct (snd nv) as [v|] eqn:Ev; [|discriminate].
      destruct (free_marked st (fst nv) _ So x x1 E) as [(l & E1 & F & ->)|(b & rx & ar & E1 & F & N & M)].
      - split; [|exact I2]. econstructor; [|exact I1]. exists v. split; [exact Ev|]. left. eauto.
      - split; [|eapply same_words_trans; [eapply marked_same; exact M|exact I2]].
        econstructor; [|exact I1]. exists v. split; [exact Ev|]. right. exists b, rx, ar. auto. }
    destruct (an_subs a) as [|s0 subs]; [injection H as <-; split; [constructor|apply same_words_refl]|]. apply G. exact H. }
  destruct L as [L1 L2]. split; [|eapply same_words_trans; eassumption]. exists r', d1. split; [apply prefixed_with|]. auto.
Qed.
Lemma ranges_step_marked text a rs : in_order (map w_tok (concat text)) -> forall d d', (forall p, In p (map w_tok (concat text)) -> tok_at d p <> None) ->
  foldM (range_step sp lower escape_re re_search search_all c sub_only text a) d rs = Ok d' ->
  ranges_marked sp lower escape_re re_search search_all c sub_only text a rs d d' /\ same_words d d'.
Proof.
  intros Ho. induction rs as [|r rs IH]; intros d d' Hex H; cbn [foldM] in H; [injection H as <-; split; [constructor|apply same_words_refl]|].
  destruct (range_step _ _ _ _ _ _ _ text a d r) as [d1|] eqn:E; [|discriminate]. cbn [bind] in H.
  destruct (range_step_marked text a d r d1 Ho Hex E) as [R1 R2].
  destruct (IH d1 d') as [I1 I2]; [|exact H|].
  - intros p Hp. specialize (R2 p). specialize (Hex p Hp). destruct (tok_at d p); [|congruence]. destruct R2 as (t' & -> & _). discriminate.
  - split; [econstructor; eassumption|eapply same_words_trans; eassumption].
Qed.
End Steps.

(* ---------------------------------------------------------------- *)
(** ** Searching *)
Section Search.
Variable sp wd : N -> bool.
Variable lower escape_re : str -> str.
Variable re_search : str -> str -> option Z.
Variable search_chunks : str -> str -> nat -> res (option (list irange)).
Variable search_all : str -> str -> list (res irange).
Variable c : config.

Definition no_ranges (o : option (list irange)) : Prop := o = None \/ o = Some [].
Lemma found_true o : found o = true -> exists rs, o = Some rs /\ rs <> [].
Proof. destruct o as [[|r rs]|]; try discriminate. intros _. eexists. split; [reflexivity|discriminate]. Qed.
Lemma found_false o : found o = false -> no_ranges o.
Proof. destruct o as [[|r rs]|]; try discriminate; intros _; [now right|now left]. Qed.
Lemma matching_spec text n k o : matching_chunks sp wd lower search_chunks c text n k = Ok o ->
  (exists rs, o = Some rs /\ needle_found sp wd lower search_chunks c text n k rs) \/
  (no_ranges o /\ needle_missing sp wd lower search_chunks c text n k).
Proof.
  unfold matching_chunks, needle_found, needle_missing, normalise. destruct (Nat.ltb_spec (length n) (cf_min_token_length c)) as [Hl|Hl].
  - intros [= <-]. right. split; [now left|]. now left.
  - fold (haystack_for lower c n text). destruct (search_chunks (haystack_for lower c n text) (normalise_str lower n) k) as [o1|] eqn:E1; [|discriminate]. cbn [bind].
    destruct (found o1) eqn:F1.
    + intros [= <-]. apply found_true in F1 as (rs & -> & F1). left. exists rs. split; [reflexivity|]. split; [lia|]. left. split; assumption.
    + apply found_false in F1. intros E2.
      assert (M1 : no_hits search_chunks (haystack_for lower c n text) (normalise_str lower n) k).
      { destruct F1 as [->| ->]; [now left|now right]. }
      destruct (found o) eqn:F2.
      * apply found_true in F2 as (rs & -> & F2). left. exists rs. split; [reflexivity|]. split; [lia|]. right. split; [exact M1|]. split; assumption.
      * apply found_false in F2. right. split; [exact F2|]. right. split; [exact M1|]. destruct F2 as [->| ->]; [now left|now right].
Qed.
Lemma found_not_empty text n k : ~ needle_found sp wd lower search_chunks c text n k [].
Proof. intros (_ & [[H _]|[_ [H _]]]); congruence. Qed.
Lemma spelling_spec text a v k o :
  spelling_chunks sp wd lower search_chunks c text v (tc_spellings (get_tag_config c (an_name a))) k = Ok o ->
  (exists rs, o = Some rs /\ rs <> [] /\ value_found sp wd lower search_chunks c text a v k rs) \/
  (no_ranges o /\ value_missing sp wd lower search_chunks c text a v k).
Proof.
  unfold spelling_chunks, value_found, value_missing. destruct (matching_chunks _ _ _ _ _ text v k) as [o1|] eqn:E1; [|discriminate]. cbn [bind].
  apply matching_spec in E1 as [(rs & -> & F)|[N M]].
  - assert (Hr : rs <> []) by (intros ->; now apply found_not_empty in F).
    destruct rs as [|r rs]; [congruence|]. cbn [found orb]. intros [= <-]. left. eexists. split; [reflexivity|]. split; [exact Hr|].
    exists [], v, (spellings_of c a v). auto.
  - assert (Ff : found o1 = false) by (destruct N as [->| ->]; reflexivity). rewrite Ff. cbn [orb]. unfold spellings_of.
    destruct (tc_spellings (get_tag_config c (an_name a))) as [|x sps] eqn:Es; cbn [nonempty negb].
    + intros [= <-]. right. split; [exact N|]. constructor; [exact M|constructor].
    + rewrite <- Es. generalize (match dict_get v (tc_spellings (get_tag_config c (an_name a))) with Some l => l | None => [] end) as l.
      intros l. assert (G : forall l pre, Forall (fun m => needle_missing sp wd lower search_chunks c text m k) pre ->
        first_spelling sp wd lower search_chunks c text k l = Ok o ->
        (exists rs, o = Some rs /\ rs <> [] /\ exists before n after, pre ++ l = before ++ n :: after /\
          Forall (fun m => needle_missing sp wd lower search_chunks c text m k) before /\ needle_found sp wd lower search_chunks c text n k rs) \/
        (no_ranges o /\ Forall (fun m => needle_missing sp wd lower search_chunks c text m k) (pre ++ l))).
      { clear. induction l as [|y l IH]; intros pre Hp H; cbn [first_spelling] in H.
        - injection H as <-. right. rewrite app_nil_r. split; [now left|exact Hp].
        - destruct (matching_chunks _ _ _ _ _ text y k) as [o2|] eqn:E2; [|discriminate]. cbn [bind] in H.
          apply matching_spec in E2 as [(rs & -> & F)|[N2 M2]].
          + assert (Hr : rs <> []) by (intros ->; now apply found_not_empty in F).
            destruct rs as [|r rs]; [congruence|]. cbn [found] in H. injection H as <-. left. eexists. split; [reflexivity|]. split; [exact Hr|].
            exists pre, y, l. auto.
          + assert (F2 : found o2 = false) by (destruct N2 as [->| ->]; reflexivity). rewrite F2 in H.
            destruct (IH (pre ++ [y])) as [I|I]; [apply Forall_app; split; [exact Hp|constructor; [exact M2|constructor]]|exact H| |];
              rewrite <- app_assoc in I; [left|right]; exact I. }
      intros H. apply (G l [v]); [constructor; [exact M|constructor]|exact H].
Qed.
Lemma values_spec text a vs : forall rs, ranges_of_values sp wd lower search_chunks c text (tc_spellings (get_tag_config c (an_name a))) vs = Ok rs ->
  values_found sp wd lower search_chunks c text a vs rs.
Proof.
  induction vs as [|v vs IH]; intros rs H; cbn [ranges_of_values] in H; [injection H as <-; constructor|].
  unfold spelling_range in H. destruct (spelling_chunks _ _ _ _ _ text v _ 1) as [o|] eqn:E; [|discriminate]. cbn [bind] in H.
  destruct (ranges_of_values _ _ _ _ _ text _ vs) as [rs'|] eqn:E'; cbn [bind] in H.
  2:{ destruct o as [[|? ?]|]; discriminate. }
  specialize (IH rs' eq_refl). apply spelling_spec in E as [(l & -> & Hl & F)|[N M]].
  - destruct l as [|x l]; [congruence|]. injection H as <-. now apply vf_found.
  - assert (rs = rs') by (destruct N as [->| ->]; now injection H). subst. now apply vf_missing.
Qed.
(** The ranges that are marked for an annotation are those found as specified; none are
    marked exactly if nothing is found. *)
Theorem C72_search text a rs : matching_ranges sp wd lower search_chunks c text a = Ok rs ->
  (rs <> [] /\ annotation_found sp wd lower search_chunks c (text_of text) a rs) \/
  (rs = [] /\ annotation_missing sp wd lower search_chunks c (text_of text) a).
Proof.
  unfold matching_ranges, annotation_found, annotation_missing. destruct (an_value a) as [v|vs].
  - destruct (spelling_chunks _ _ _ _ _ (text_of text) v _ _) as [o|] eqn:E; [|discriminate]. cbn [bind]. intros [= <-].
    apply spelling_spec in E as [(l & -> & Hl & F)|[N M]]; [left; auto|right]. split; [|exact M]. destruct N as [->| ->]; reflexivity.
  - destruct (ranges_of_values _ _ _ _ _ (text_of text) _ vs) as [all|] eqn:E; [|discriminate]. cbn [bind]. apply values_spec in E.
    destruct all as [|x all]; [intros [= <-]; right; auto|].
    destruct (select_index_ranges (x :: all)) as [[sel unsel]|] eqn:Es; [|discriminate]. cbn [bind fst].
    destruct (merge_index_ranges sel) as [[s e]|] eqn:Em; [|discriminate]. cbn [bind]. intros [= <-]. left. split; [discriminate|].
    exists (x :: all), sel, unsel, s, e. split; [exact E|]. split; [discriminate|]. split; [exact Es|]. split; [reflexivity|].
    destruct (C15_merged sel) as [[-> _]|(s' & e' & E1 & E2)]; [discriminate|]. rewrite Em in E1. injection E1 as <- <-. exact E2.
Qed.
(** A value that is shorter than the minimum and has no alternative spelling is not found. *)
Theorem C72_short text a v rs : an_value a = VOne v -> length v < cf_min_token_length c -> spellings_of c a v = [] ->
  matching_ranges sp wd lower search_chunks c text a = Ok rs -> rs = [].
Proof.
  intros Ev Hl Hs H. apply C72_search in H as [[Hr F]|[-> _]]; [|reflexivity]. exfalso. unfold annotation_found in F. rewrite Ev in F.
  destruct F as (b & n & a' & E & _ & F). rewrite Hs in E. destruct b as [|y b].
  - injection E as <- _. destruct F as [F _]. lia.
  - injection E as _ E. destruct b; discriminate.
Qed.
End Search.

(* ---------------------------------------------------------------- *)
(** ** Whole runs *)
Section Trace.
Variable sp wd : N -> bool.
Variable lower escape_re : str -> str.
Variable re_search : str -> str -> option Z.
Variable search_chunks : str -> str -> nat -> res (option (list irange)).
Variable search_all : str -> str -> list (res irange).
Variable c : config.
Variable sub_only : bool.
Notation amarked := (annotation_marked sp wd lower escape_re re_search search_chunks search_all c sub_only).
Notation amissing := (annotation_missing sp wd lower search_chunks c).
Notation process1 := (process_one sp wd lower escape_re re_search search_chunks search_all c sub_only).

Lemma pending_prefix {B} (tg : B -> bool) n (qs : list (list B)) : exists rest,
  filter (fun t => negb (tg t)) (concat qs) = concat (pending_sequences tg n qs) ++ rest.
Proof.
  assert (K : concat (pending_sequences tg 0 qs) = filter (fun t => negb (tg t)) (concat qs)).
  { unfold pending_sequences. induction qs as [|l qs IH]; [reflexivity|]. cbn [flat_map concat]. rewrite concat_app, filter_app, IH. f_equal.
    destruct l as [|x l]; [reflexivity|]. apply (Runs_concat tg _ _ _ (C14_runs tg (x :: l) ltac:(discriminate))). }
  destruct (C14_limit tg n qs) as (rest & E & _). rewrite <- K, E, concat_app. eauto.
Qed.
Definition words_of (d : doc) (ps : list pos) : Prop := Forall (fun p => exists t, tok_at d p = Some t /\ blank sp (tx t) = false) ps.
Definition good (d : doc) (qs : list (list pos)) : Prop := in_order (concat qs) /\ words_of d (concat qs).
Lemma good_same d d' qs : same_words d d' -> good d qs -> good d' qs.
Proof.
  intros H [G1 G2]. split; [exact G1|]. unfold words_of in *. eapply Forall_impl; [|exact G2]. intros p (t & E & B). specialize (H p). rewrite E in H.
  destruct H as (t' & E' & S1 & S2). exists t'. split; [exact E'|]. now rewrite <- S1.
Qed.
(** the sequences searched *)
Lemma pending_free d n qs : good d qs ->
  exists ps, pending_text sp lower n d qs = words_text sp lower d ps /\ in_order (concat ps) /\ Forall (free_word sp d) (concat ps) /\ good d ps.
Proof.
  intros [G1 G2]. unfold pending_text, words_text. set (tg := fun p => negb (untagged d p)). exists (pending_sequences tg n qs). split; [reflexivity|].
  destruct (pending_prefix tg n qs) as [rest E].
  assert (S1 : in_order (concat (pending_sequences tg n qs))).
  { apply (sorted_app_l _ _ rest). rewrite <- E. now apply sorted_filter. }
  assert (F : Forall (free_word sp d) (concat (pending_sequences tg n qs))).
  { apply Forall_forall. intros p Hp. assert (Hf : In p (filter (fun t => negb (tg t)) (concat qs))) by (rewrite E; apply in_or_app; auto).
    apply filter_In in Hf as [Hin Hu]. unfold words_of in G2. rewrite Forall_forall in G2. destruct (G2 p Hin) as (t & Et & Bt). exists t. split; [exact Et|]. split; [exact Bt|].
    unfold tg, untagged, main_tag in Hu. rewrite at_pos_eq, Et in Hu. rewrite negb_involutive in Hu. now apply negb_true_iff in Hu. }
  split; [exact S1|]. split; [exact F|]. split; [exact S1|]. eapply Forall_impl; [|exact F]. intros p (t & E1 & E2 & _). eauto.
Qed.
Lemma words_text_toks d ps : good d ps -> map w_tok (concat (words_text sp lower d ps)) = concat ps.
Proof.
  intros [_ G]. unfold words_text. induction ps as [|q ps IH]; [reflexivity|]. cbn [map concat] in *. unfold words_of in *. rewrite Forall_app in G. destruct G as [Ga Gb].
  rewrite map_app, (IH Gb), wrap_toks; [reflexivity|]. intros p Hp. rewrite Forall_forall in Ga. destruct (Ga p Hp) as (t & -> & _). discriminate.
Qed.
Lemma words_text_each d ps : good d ps -> map (map w_tok) (words_text sp lower d ps) = ps.
Proof.
  intros [_ G]. unfold words_text. induction ps as [|q ps IH]; [reflexivity|]. cbn [map concat] in *. unfold words_of in *. rewrite Forall_app in G. destruct G as [Ga Gb].
  rewrite (IH Gb), wrap_toks; [reflexivity|]. intros p Hp. rewrite Forall_forall in Ga. destruct (Ga p Hp) as (t & -> & _). discriminate.
Qed.
(** the sequences of a block *)
Lemma block_good d ps r : good d ps ->
  good d (map (map w_tok) (sequences_between [10%N] [] (words_text sp lower d ps) r)).
Proof.
  intros G. pose proof (words_text_each d ps G) as E. destruct G as [G1 G2]. unfold sequences_between. rewrite seqs_joined_eq. cbn [snd].
  rewrite items_between_eq; [| |apply spans_sorted]; [|now rewrite spans_length, map_length].
  set (text := words_text sp lower d ps) in *. rewrite map_map.
  set (L := combine text (spans (map (fun q => (seq_text q, [10%N])) text))).
  assert (EL : map fst L = text).
  { unfold L. assert (Hl : length text = length (spans (map (fun q => (seq_text q, [10%N])) text))) by now rewrite spans_length, map_length.
    revert Hl. generalize (spans (map (fun q => (seq_text q, [10%N])) text)) as s. clear. induction text as [|x text IH]; intros [|y s] H; try discriminate; [reflexivity|].
    cbn. f_equal. apply IH. now injection H. }
  rewrite <- EL, map_map in E. rewrite <- E in G1, G2. split.
  - unfold in_order in *. now apply sorted_sub.
  - unfold words_of in *. rewrite Forall_forall in *. intros p Hp. apply G2. apply in_concat in Hp as (z & Hz & Hp). apply in_map_iff in Hz as (b & <- & Hb).
    apply filter_In in Hb as [Hb _]. apply in_concat. exists (map w_tok (fst b)). split; [apply (in_map (fun x => map w_tok (fst x))); exact Hb|exact Hp].
Qed.
Lemma mark_good d n qs a rs d' : good d qs -> matching_ranges sp wd lower search_chunks c (pending_text sp lower n d qs) a = Ok rs -> rs <> [] ->
  foldM (range_step sp lower escape_re re_search search_all c sub_only (pending_text sp lower n d qs) a) d rs = Ok d' ->
  amarked a d d' /\ same_words d d'.
Proof.
  intros G M Hr H. destruct (pending_free d n qs G) as (ps & E & S & F & G'). rewrite E in *.
  assert (T : map w_tok (concat (words_text sp lower d ps)) = concat ps) by now apply words_text_toks.
  destruct (ranges_step_marked sp lower escape_re re_search search_all c sub_only (words_text sp lower d ps) a rs) with (d := d) (d' := d') as [R1 R2].
  - now rewrite T.
  - rewrite T. intros p Hp. rewrite Forall_forall in F. destruct (F p Hp) as (t & -> & _). discriminate.
  - exact H.
  - split; [|exact R2]. exists ps, rs. split; [exact S|]. split; [exact F|]. split; [|exact R1].
    apply C72_search in M as [[_ M]|[-> _]]; [exact M|congruence].
Qed.
Lemma process_one_marked all s a s' : good (st_doc s) all -> good (st_doc s) (st_seqs s) -> process1 all s a = Ok s' ->
  (amarked a (st_doc s) (st_doc s') /\ same_words (st_doc s) (st_doc s') /\ st_left s' = st_left s /\ good (st_doc s') (st_seqs s')) \/
  (s' = mkState (st_doc s) (st_seqs s) (st_block s) (st_left s ++ [a]) /\
   (st_block s = None -> amissing (text_of (pending_text sp lower 0 (st_doc s) all)) a)).
Proof.
  intros Ga Gs. unfold process_one. destruct (matching_ranges _ _ _ _ _ _ a) as [[|r rs]|] eqn:E1; cbn [bind]; [| |discriminate].
  - destruct (ostreq (st_block s) (Some (block_name c (an_name a)))) eqn:Eb.
    + intros [= <-]. right. split; [reflexivity|]. intros Hb. rewrite Hb in Eb. discriminate.
    + destruct (matching_ranges _ _ _ _ _ (pending_text sp lower 0 (st_doc s) all) a) as [[|r rs]|] eqn:E2; cbn [bind]; [| |discriminate].
      * intros [= <-]. right. split; [reflexivity|]. intros _. apply C72_search in E2 as [[H _]|[_ H]]; [congruence|exact H].
      * destruct (merge_index_ranges _) as [m|]; [|discriminate]. cbn [bind].
        destruct (foldM _ _ _) as [d'|] eqn:E3; [|discriminate]. cbn [bind]. intros [= <-]. cbn [st_doc st_seqs st_left]. left.
        destruct (mark_good _ _ _ _ _ _ Ga E2 ltac:(discriminate) E3) as [M W]. repeat split; auto; eapply good_same; try exact W;
          destruct (pending_free (st_doc s) 0 all Ga) as (ps & -> & _ & _ & G'); now apply block_good.
  - destruct (foldM _ _ _) as [d'|] eqn:E3; [|discriminate]. cbn [bind]. intros [= <-]. cbn [st_doc st_seqs st_left]. left.
    destruct (mark_good _ _ _ _ _ _ Gs E1 ltac:(discriminate) E3) as [M W]. repeat split; auto; eapply good_same; try exact W; exact Gs.
Qed.
Notation roundR := (round sp wd lower escape_re re_search search_chunks search_all c sub_only).
Lemma fold_round all ts : forall s s', good (st_doc s) all -> good (st_doc s) (st_seqs s) -> foldM (process1 all) s ts = Ok s' ->
  exists left, roundR ts (st_doc s) left (st_doc s') /\ st_left s' = st_left s ++ left /\
    (st_block s = None -> length left = length ts -> left = ts /\ st_doc s' = st_doc s /\
       Forall (amissing (text_of (pending_text sp lower 0 (st_doc s) all))) ts).
Proof.
  induction ts as [|a ts IH]; intros s s' Ga Gs H; cbn [foldM] in H.
  - injection H as <-. exists []. rewrite app_nil_r. repeat split; constructor.
  - destruct (process1 all s a) as [s1|] eqn:E; [|discriminate]. cbn [bind] in H.
    destruct (process_one_marked all s a s1 Ga Gs E) as [(M & W & L & G)|(-> & M)].
    + destruct (IH s1 s' (good_same _ _ _ W Ga) G H) as (left & R & L' & _). exists left. split; [eapply round_mark; eassumption|].
      split; [now rewrite L', L|]. intros _ Hl. exfalso.
      assert (B : length left <= length ts) by (clear -R; induction R; cbn; lia). cbn [length] in Hl. lia.
    + destruct (IH (mkState (st_doc s) (st_seqs s) (st_block s) (st_left s ++ [a])) s' Ga Gs H) as (left & R & L' & I). cbn [st_doc st_left st_block] in *. exists (a :: left). split; [now apply round_leave|].
      split; [rewrite L', <- app_assoc; reflexivity|]. intros Hb Hl. injection Hl as Hl. destruct (I Hb Hl) as (-> & Ed & F). repeat split; auto.
Qed.
(** the sequences at the start: the words without tag, line by line *)
Lemma word_indices_sorted i l : forall j, in_order (word_indices sp i j l).
Proof.
  induction l as [|t l IH]; intros j; cbn [word_indices]; [constructor|]. destruct (is_space sp t); cbn [app]; [apply IH|].
  constructor; [apply IH|]. apply Forall_forall. intros p Hp. apply word_indices_spec in Hp as (k & t' & -> & _). right. cbn. lia.
Qed.
Lemma line_words_in d : forall i p, In p (concat (line_words sp i d)) <->
  exists k j t l, p = (i + k, j) /\ nth_error d k = Some l /\ nth_error l j = Some t /\ is_word sp t = true.
Proof.
  assert (E : forall i, concat (line_words sp i d) = word_positions sp i d).
  { induction d as [|l d' IH]; intros i; [reflexivity|]. cbn [line_words concat word_positions]. now rewrite IH. }
  intros i p. rewrite E. apply word_positions_spec.
Qed.
Lemma sorted_app {A} (R : A -> A -> Prop) a b : StronglySorted R a -> StronglySorted R b -> (forall x y, In x a -> In y b -> R x y) -> StronglySorted R (a ++ b).
Proof.
  intros Ha Hb H. induction Ha as [|x a Ha IH Hf]; [exact Hb|]. cbn [app]. constructor; [apply IH; intros y z Hy; apply H; now right|].
  apply Forall_app. split; [exact Hf|]. apply Forall_forall. intros z Hz. apply H; [now left|exact Hz].
Qed.
Lemma line_words_sorted d : forall i, in_order (concat (line_words sp i d)).
Proof.
  induction d as [|l d IH]; intros i; cbn [line_words concat]; [constructor|]. apply sorted_app; [apply word_indices_sorted|apply IH|].
  intros p q Hp Hq. apply word_indices_spec in Hp as (k & t & -> & _). apply line_words_in in Hq as (k' & j & t' & l' & -> & _). left. cbn. lia.
Qed.
Lemma filter_nonempty_concat {A} (ls : list (list A)) : concat (filter nonempty ls) = concat ls.
Proof. induction ls as [|[|x l] ls IH]; cbn [filter nonempty concat]; [reflexivity|exact IH|now rewrite IH]. Qed.
Lemma concat_map_filter {A} (f : A -> bool) (ls : list (list A)) : concat (map (filter f) ls) = filter f (concat ls).
Proof. induction ls as [|l ls IH]; [reflexivity|]. cbn [map concat]. now rewrite filter_app, IH. Qed.
Theorem C73_initial d : untagged_words sp d (initial_sequences sp d).
Proof.
  unfold untagged_words, initial_sequences. rewrite filter_nonempty_concat, concat_map_filter. split; [|split; [|split]].
  - apply sorted_filter, line_words_sorted.
  - intros p. rewrite filter_In, line_words_in. unfold untagged, main_tag. rewrite at_pos_eq. unfold free_word, tok_at. split.
    + intros ((k & j & t & l & -> & E1 & E2 & W) & U). cbn [fst snd] in *. cbn [Nat.add] in *. rewrite E1, E2 in U. rewrite E1, E2. exists t. split; [reflexivity|].
      unfold is_word, is_space in W. apply negb_true_iff in W, U. auto.
    + intros (t & E & B & U). destruct (nth_error d (fst p)) as [l|] eqn:E1; [|discriminate]. rewrite E. split; [|now rewrite U].
      exists (fst p), (snd p), t, l. split; [destruct p; reflexivity|]. split; [exact E1|]. split; [exact E|]. unfold is_word, is_space. now rewrite B.
  - apply Forall_forall. intros q Hq. apply filter_In in Hq as [_ Hq]. intros ->. discriminate.
  - set (P := untagged d).
    assert (G : forall (P : pos -> bool) d i, let L := filter nonempty (map (filter P) (line_words sp i d)) in
      (forall q p, In q L -> In p q -> i <= fst p) /\
      (forall a b q q' p p', nth_error L a = Some q -> nth_error L b = Some q' -> In p q -> In p' q' -> (fst p = fst p' <-> a = b))).
    { clear d P. intros P d. induction d as [|l d IH]; intros i; cbn zeta.
      - cbn. split; [easy|]. intros [|a] b q q' p p' [=].
      - cbn [line_words map filter]. set (w := filter P (word_indices sp i 0 l)). destruct (IH (S i)) as [I1 I2]. cbn zeta in I1, I2.
        assert (Hw : forall p, In p w -> fst p = i).
        { intros p Hp. apply filter_In in Hp as [Hp _]. apply word_indices_spec in Hp as (k & t & -> & _). reflexivity. }
        destruct (nonempty w) eqn:En.
        + split.
          * intros q p [<-|Hq] Hp; [rewrite (Hw p Hp); lia|]. specialize (I1 q p Hq Hp). lia.
          * intros [|a] [|b] q q' p p' Ha Hb Hp Hp'; cbn [nth_error] in Ha, Hb.
            -- injection Ha as <-. injection Hb as <-. rewrite (Hw p Hp), (Hw p' Hp'). tauto.
            -- injection Ha as <-. rewrite (Hw p Hp). apply nth_error_In in Hb. specialize (I1 _ _ Hb Hp'). split; lia.
            -- injection Hb as <-. rewrite (Hw p' Hp'). apply nth_error_In in Ha. specialize (I1 _ _ Ha Hp). split; lia.
            -- rewrite (I2 a b q q' p p' Ha Hb Hp Hp'). split; lia.
        + split; [|exact I2]. intros q p Hq Hp. specialize (I1 q p Hq Hp). lia. }
    intros a b q q' p p'. apply (proj2 (G P d 0)).
Qed.
Lemma initial_good d : good d (initial_sequences sp d).
Proof.
  destruct (C73_initial d) as (H1 & H2 & _). split; [exact H1|]. apply Forall_forall. intros p Hp. apply H2 in Hp as (t & E & B & _). eauto.
Qed.
(** all of them are searched when the block changes *)
Lemma initial_pending d : pending_sequences (fun p => negb (untagged d p)) 0 (initial_sequences sp d) = initial_sequences sp d.
Proof.
  assert (H : Forall (fun l => Forall (fun p => negb (untagged d p) = false) l /\ l <> []) (initial_sequences sp d)).
  { apply Forall_forall. intros l Hl. unfold initial_sequences in Hl. apply filter_In in Hl as [Hl Hn]. apply in_map_iff in Hl as (x & <- & _). split.
    - apply Forall_forall. intros p Hp. apply filter_In in Hp as [_ Hp]. now rewrite Hp.
    - intros E. rewrite E in Hn. discriminate. }
  unfold pending_sequences. induction H as [|l ls [H Hn] Hf IH]; [reflexivity|]. cbn [flat_map]. rewrite IH.
  change (l :: ls) with ([l] ++ ls). f_equal. unfold untagged_sub_sequences.
  replace (filter (fun p => negb (untagged d p)) l) with (@nil pos); [reflexivity|]. symmetry.
  induction H as [|p l Hp H IHl]; [reflexivity|]. cbn [filter]. rewrite Hp. destruct l as [|y l]; [reflexivity|]. apply IHl. discriminate.
Qed.
(** Every run is a sequence of rounds; in the end, no annotation that is left is found in
    the text of the words that are then without tag. *)
Theorem C73_run targets fuel d d' : length targets <= fuel ->
  annotate_loop sp wd lower escape_re re_search search_chunks search_all c sub_only fuel targets d = Ok d' ->
  exists left, rounds sp wd lower escape_re re_search search_chunks search_all c sub_only targets d left d' /\
    (left <> [] -> exists qs, untagged_words sp d' qs /\ Forall (amissing (text_of (words_text sp lower d' qs))) left).
Proof.
  revert targets d. induction fuel as [|f IH]; intros ts d Hf H.
  - destruct ts; [|cbn in Hf; lia]. injection H as <-. exists []. split; [constructor|congruence].
  - destruct ts as [|a ts]; [injection H as <-; exists []; split; [constructor|congruence]|]. cbn [annotate_loop] in H.
    destruct (process_targets _ _ _ _ _ _ _ _ _ (a :: ts) d) as [s|] eqn:E; [|discriminate]. cbn [bind] in H.
    unfold process_targets in E. destruct (fold_round (initial_sequences sp d) (a :: ts) (mkState d (initial_sequences sp d) None []) s) as (left & R & L & I);
      [apply initial_good|apply initial_good|exact E|]. cbn [st_doc st_left st_block app] in *.
    destruct (Nat.eqb_spec (length (st_left s)) (length (a :: ts))) as [El|El].
    + injection H as <-. rewrite L in El. destruct (I eq_refl El) as (-> & Ed & F). exists (a :: ts). rewrite Ed. split; [constructor|].
      intros _. exists (initial_sequences sp d). split; [apply C73_initial|]. unfold pending_text in F. rewrite initial_pending in F. exact F.
    + rewrite L in *. assert (B : length left <= length (a :: ts)) by (clear -R; induction R; cbn; lia).
      destruct (IH left (st_doc s)) as (left' & R' & F'); [cbn [length] in *; lia|exact H|]. exists left'. split; [econstructor; eassumption|exact F'].
Qed.
End Trace.

(* ---------------------------------------------------------------- *)
(** ** Placeholders in prefix patterns *)
Section Placeholders.
Variable escape_re : str -> str.
Variable ph : list (str * str).
Notation resolve p := (resolve_placeholders escape_re p ph).
Definition replacement (name : str) : str := escape_re (match dict_get name ph with Some v => v | None => u "NOT_FOUND" end).
Lemma resolve_skip n s : n <= length s -> resolve_go escape_re ph n s = resolve_go escape_re ph 0 (skipn n s).
Proof. revert s. induction n as [|n IH]; intros s H; [reflexivity|]. destruct s as [|x s]; [cbn in H; lia|]. cbn [resolve_go skipn length] in *. apply IH. lia. Qed.
Lemma until_brace_app acc name post : ~ In 125%N name -> until_brace acc (name ++ 125%N :: post) = Some (rev acc ++ name, post).
Proof.
  revert acc. induction name as [|x name IH]; intros acc H; cbn [app until_brace].
  - cbn. now rewrite app_nil_r.
  - destruct (N.eqb_spec x 125) as [->|e]; [exfalso; apply H; now left|]. rewrite IH by (intros K; apply H; now right). cbn [rev]. now rewrite <- app_assoc.
Qed.
Lemma until_brace_none acc s : ~ In 125%N s -> until_brace acc s = None.
Proof.
  revert acc. induction s as [|x s IH]; intros acc H; [reflexivity|]. cbn [until_brace]. destruct (N.eqb_spec x 125) as [->|e]; [exfalso; apply H; now left|].
  apply IH. intros K. apply H. now right.
Qed.
Lemma resolve_pre pre s : ~ In 123%N pre -> resolve (pre ++ s) = pre ++ resolve s.
Proof.
  unfold resolve_placeholders. induction pre as [|x pre IH]; intros H; [reflexivity|]. cbn [app resolve_go].
  destruct (N.eqb_spec x 123) as [->|e]; [exfalso; apply H; now left|]. f_equal. apply IH. intros K. apply H. now right.
Qed.
(** A name in braces is replaced by the value of the sub annotation, everything else stays. *)
Theorem C72_placeholders pre name post : ~ In 123%N pre -> ~ In 125%N name -> name <> [] ->
  resolve (pre ++ 123%N :: name ++ 125%N :: post) = pre ++ replacement name ++ resolve post.
Proof.
  intros Hp Hn He. rewrite resolve_pre by exact Hp. f_equal. unfold resolve_placeholders. cbn [resolve_go N.eqb].
  change (N.eqb 123 123) with true. cbn iota. rewrite until_brace_app by exact Hn. cbn [rev app]. destruct name as [|x name]; [congruence|].
  unfold replacement. f_equal. rewrite resolve_skip by (rewrite app_length; cbn; lia). f_equal.
  rewrite skipn_app. replace (length (x :: name) + 1 - length (x :: name)) with 1 by lia.
  rewrite skipn_all2 by lia. reflexivity.
Qed.
Theorem C72_no_placeholder pre : ~ In 123%N pre -> resolve pre = pre.
Proof. intros H. rewrite <- (app_nil_r pre) at 1. rewrite resolve_pre by exact H. apply app_nil_r. Qed.
(** braces that are not closed, and empty ones, stay *)
Theorem C72_open_brace pre rest : ~ In 123%N pre -> (~ In 125%N rest \/ exists post, rest = 125%N :: post) ->
  resolve (pre ++ 123%N :: rest) = pre ++ 123%N :: resolve rest.
Proof.
  intros Hp H. rewrite resolve_pre by exact Hp. f_equal. unfold resolve_placeholders. cbn [resolve_go]. change (N.eqb 123 123) with true. cbn iota.
  destruct H as [H|[post ->]]; [now rewrite until_brace_none|reflexivity].
Qed.
End Placeholders.

(* ---------------------------------------------------------------- *)
(** ** Examples *)
Definition ex_words : list (seqw pos) := words_text ascii_space lower_ascii ex_doc [[(0, 0); (0, 1); (0, 2)]; [(1, 2)]].
Example C72_ex_text : text_of ex_words = u "the title x" ++ [10%N] ++ u "doe" /\ in_order (map w_tok (concat ex_words)) /\
  in_range ex_words (4, 13)%Z = [(0, 1); (0, 2); (1, 2)].
Proof.
  split; [vm_compute; reflexivity|]. split; [|vm_compute; reflexivity]. cbn. repeat constructor; unfold ahead; cbn; lia.
Qed.
Example C72_ex : map (map tag) (update_range ascii_space ex_config false ex_words (4, 13)%Z (u "title") ex_doc) =
  [[None; Some (u "b-title"); Some (u "i-title")]; [Some (u "b-author"); Some (u "i-author"); Some (u "i-title")]].
Proof. vm_compute; reflexivity. Qed.
Example C72_ex_search :
  matching_ranges ascii_space ascii_word lower_ascii exact_chunks ex_config ex_words (mkTann (u "title") (VOne (u "The Title")) []) = Ok [(0, 9)%Z] /\
  matching_ranges ascii_space ascii_word lower_ascii exact_chunks ex_config ex_words (mkTann (u "title") (VOne (u "The, Title")) []) = Ok [] /\
  matching_ranges ascii_space ascii_word lower_ascii exact_chunks ex_config ex_words (mkTann (u "title") (VOne (u "x")) []) = Ok [] /\
  matching_ranges ascii_space ascii_word lower_ascii exact_chunks ex_config ex_words (mkTann (u "title") (VMany [u "Doe"; u "missing"; u "Title"]) []) = Ok [(4, 15)%Z].
Proof. repeat split; vm_compute; reflexivity. Qed.
Example C72_ex_placeholders : resolve_placeholders (fun s => s) (u "{label}\s*") (placeholders [(u "label", VOne (u "1"))]) = u "1\s*".
Proof. vm_compute; reflexivity. Qed.
Example C73_ex : exists d',
  annotate_loop ascii_space ascii_word lower_ascii (fun s => s) no_regex exact_chunks exact_all ex_config_no_extend false 3 ex_targets ex_doc = Ok d' /\
  length ex_targets <= 3 /\ map (map tag) d' = [[Some (u "b-title"); Some (u "i-title"); None]; [Some (u "b-author"); Some (u "i-author"); Some (u "b-author")]] /\
  initial_sequences ascii_space d' = [[(0, 2)]].
Proof. eexists. split; [vm_compute; reflexivity|]. split; [cbn; lia|]. split; vm_compute; reflexivity. Qed.

Print Assumptions C72_marks.
Print Assumptions C72_search.
Print Assumptions C72_short.
Print Assumptions C72_placeholders.
Print Assumptions C72_no_placeholder.
Print Assumptions C72_open_brace.
Print Assumptions C73_initial.
Print Assumptions C73_run.
