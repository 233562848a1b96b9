(** C108: short values of one word and the simple matcher, with the searches of the commands and the
    model of difflib. *)
From Verif Require Import Base ModelTags ProofTags ModelTokenize ModelTei ModelTeiDoc SpecTeiWrite SpecTeiDoc ProofTeiDoc PropTeiDoc
  ModelJoined PropJoined ModelExtend ModelClusters ModelTarget ModelReference PropReferenceDoc ModelSimpleMatch PropSimpleMatch
  ModelAnnotators ModelCommands ModelFuzzyMatch ModelWordMatch ModelFuzzySearch ModelDifflib PropFuzzyMatch PropFuzzySearch PropDifflib.
From Coq Require Import Sorting.Sorted.
Open Scope nat_scope.
Open Scope list_scope.

(* ---------------------------------------------------------------- *)
(** ** Specification *)
Notation seps := default_separators.
(** the first place where [n] is a whole word of [h]: what is before it, and after it *)
Definition first_place (h n x y : str) : Prop :=
  whole_words seps h x n y /\ forall x' y', whole_words seps h x' n y' -> length x <= length x'.
(** the tokens of [text] that have a character in the range *)
Definition touched (text : list (seqw (nat * nat))) (r : irange) : list (nat * nat) :=
  map (fun p => w_tok (fst p)) (filter (fun p => overlaps (snd p) r) (all_placed [10%N] text)).
(** the tag of the first and of the other tokens of a field *)
Definition field_tag (c : config) (name : str) (first : bool) : ostr :=
  Some ((if cf_begin_prefix c then if first then u "b-" else u "i-" else []) ++ name).
(** exactly the tokens [ps] get the tags of the field at the level, all other tags given stay *)
Definition tagged_exactly (c : config) (lv : level) (name : str) (ps : list (nat * nat)) (d d' : doc) : Prop :=
  forall q, match tok_at d q with
            | None => tok_at d' q = None
            | Some t => exists t', tok_at d' q = Some t' /\ same_text t t' /\
                (forall lv', lv' <> lv -> given lv' t' = given lv' t) /\
                (~ In q ps -> given lv t' = given lv t) /\
                (forall k, nth_error ps k = Some q -> given lv t' = field_tag c name (Nat.eqb k 0))
            end.

(* ---------------------------------------------------------------- *)
(** ** Texts with spaces instead of line feeds *)
Definition spaced (s : str) : str := map (fun c => if N.eqb c 10 then 32%N else c) s.
Lemma replace_newlines s : py_replace [10%N] (u " ") s = spaced s.
Proof.
  unfold py_replace. induction s as [|c s IH]; [reflexivity|]. cbn [replace_go spaced map starts_with].
  rewrite (N.eqb_sym c 10). destruct (N.eqb 10 c); cbn [andb length Nat.sub]; rewrite IH; reflexivity.
Qed.
Lemma spaced_length s : length (spaced s) = length s.
Proof. apply map_length. Qed.
Lemma spaced_sep c : in_chars (if N.eqb c 10 then 32%N else c) seps = in_chars c seps.
Proof. destruct (N.eqb_spec c 10) as [->|_]; reflexivity. Qed.
Definition no_seps (n : str) : Prop := Forall (fun c => in_chars c seps = false) n.
Lemma spaced_word n : no_seps n -> spaced n = n.
Proof.
  induction 1 as [|c n Hc H IH]; [reflexivity|]. cbn [spaced map]. unfold spaced in IH. rewrite IH.
  destruct (N.eqb_spec c 10) as [->|_]; [discriminate|reflexivity].
Qed.
Lemma spaced_inv n : no_seps n -> forall w, spaced w = n -> w = n.
Proof.
  induction 1 as [|c n Hc H IH]; intros [|e w] E; try discriminate; [reflexivity|]. cbn [spaced map] in E. injection E as E1 E2.
  f_equal; [|apply IH; exact E2]. destruct (N.eqb e 10); [|exact E1]. subst c. discriminate.
Qed.
Lemma spaced_app a b : spaced (a ++ b) = spaced a ++ spaced b.
Proof. apply map_app. Qed.
Lemma spaced_split s a b : spaced s = a ++ b -> exists a' b', s = a' ++ b' /\ spaced a' = a /\ spaced b' = b.
Proof.
  revert s. induction a as [|c a IH]; intros s E; [exists [], s; auto|]. destruct s as [|e s]; [discriminate|].
  cbn [spaced map app] in E. injection E as E1 E2. destruct (IH s E2) as (a' & b' & -> & <- & <-). exists (e :: a'), b'. cbn. rewrite E1. auto.
Qed.
Lemma edge_spaced a b : edge seps (spaced a) (spaced b) <-> edge seps a b.
Proof.
  unfold edge. split.
  - intros [E|[E|[(x & c & E & Hc)|(c & y & E & Hc)]]].
    + left. destruct a; [reflexivity|discriminate].
    + right. left. destruct b; [reflexivity|discriminate].
    + right. right. left. destruct (spaced_split _ _ _ E) as (a' & b' & -> & <- & E'). destruct b' as [|e [|e2 b']]; try discriminate.
      injection E' as E'. exists a', e. split; [reflexivity|]. now rewrite <- spaced_sep, E'.
    + right. right. right. destruct b as [|e b]; [discriminate|]. cbn [spaced map] in E. injection E as E _. exists e, b. split; [reflexivity|].
      now rewrite <- spaced_sep, E.
  - intros [->|[->|[(x & c & -> & Hc)|(c & y & -> & Hc)]]].
    + now left.
    + right. now left.
    + right. right. left. rewrite spaced_app. exists (spaced x), (if N.eqb c 10 then 32%N else c). split; [reflexivity|]. now rewrite spaced_sep.
    + right. right. right. cbn [spaced map]. exists (if N.eqb c 10 then 32%N else c), (spaced y). split; [reflexivity|]. now rewrite spaced_sep.
Qed.
Lemma whole_spaced h n x y : no_seps n -> whole_words seps h x n y -> whole_words seps (spaced h) (spaced x) n (spaced y).
Proof.
  intros Hn (-> & E1 & E2). unfold whole_words. rewrite !spaced_app. rewrite <- (edge_spaced x n) in E1. rewrite <- (edge_spaced n y) in E2.
  rewrite (spaced_word n Hn) in *. auto.
Qed.
Lemma whole_unspaced h n x y : no_seps n -> whole_words seps (spaced h) x n y ->
  exists x' y', whole_words seps h x' n y' /\ length x' = length x.
Proof.
  intros Hn (E & E1 & E2). destruct (spaced_split _ _ _ E) as (x' & r & -> & Ex & Er).
  destruct (spaced_split _ _ _ Er) as (n' & y' & -> & En & Ey). apply (spaced_inv n Hn) in En. subst n'. exists x', y'.
  split; [|rewrite <- Ex; now rewrite spaced_length]. unfold whole_words. split; [reflexivity|].
  rewrite <- (edge_spaced x' n), <- (edge_spaced n y'), (spaced_word n Hn), Ex, Ey. auto.
Qed.

(** places and words of the text *)
Lemma first_tokens h n X Y : n <> [] -> no_seps n -> tokens seps h = X ++ n :: Y -> ~ In n X -> first_place h n (concat X) (concat Y).
Proof.
  intros Hn Hs E' HX. split.
  - apply tokens_whole; [exact Hn|]. now rewrite (tokens_one n (conj Hn Hs)).
  - intros x2 y2 W2. pose proof (whole_tokens seps h x2 n y2 Hn W2) as E2. rewrite (tokens_one n (conj Hn Hs)) in E2.
    rewrite E' in E2. cbn [app] in E2. destruct (tokens_facts seps x2) as (C2 & _). rewrite <- C2.
    destruct (split_cases n X Y _ _ E2 HX) as [[<- _]|(Z & -> & _)]; [reflexivity|]. rewrite concat_app, app_length. lia.
Qed.
Lemma no_place h n : n <> [] -> no_seps n -> ~ In n (tokens seps h) -> forall x y, ~ whole_words seps h x n y.
Proof.
  intros Hn Hs N x y W. apply N. rewrite (whole_tokens seps h x n y Hn W), (tokens_one n (conj Hn Hs)). apply in_or_app. right. now left.
Qed.
(** a value of one word has a first place, or none *)
Theorem C108_cases h n : n <> [] -> no_seps n ->
  (exists x y, first_place h n x y) \/ (forall x y, ~ whole_words seps h x n y).
Proof.
  intros Hn Hs. destruct (in_dec str_eq_dec n (tokens seps h)) as [Hi|Hi]; [left|right; now apply no_place].
  destruct (first_split n _ Hi) as (X & Y & E' & HX). exists (concat X), (concat Y). now apply first_tokens.
Qed.

(* ---------------------------------------------------------------- *)
(** ** Positions of the text outside of tokens *)
Lemma glue_cover l : forall s k e, nth_error (glue l) k = Some e ->
  (exists r, In r (spans_from s l) /\ (fst r <= s + Z.of_nat k < snd r)%Z) \/ exists x, In x l /\ In e (snd x).
Proof.
  induction l as [|[x y] l IH]; intros s k e H; [destruct k; discriminate|]. cbn [glue] in H. cbn [spans_from].
  destruct (Nat.ltb_spec k (length x)) as [Hk|Hk].
  - left. exists (s, s + zlen x)%Z. split; [now left|]. cbn [fst snd]. unfold zlen. lia.
  - rewrite nth_error_app2 in H by exact Hk. destruct l as [|z l]; [destruct (k - length x); discriminate|].
    destruct (Nat.ltb_spec (k - length x) (length y)) as [Hy|Hy].
    + right. exists (x, y). split; [now left|]. rewrite nth_error_app1 in H by exact Hy. cbn [snd]. eapply nth_error_In. exact H.
    + rewrite nth_error_app2 in H by exact Hy. destruct (IH (s + zlen x + zlen y)%Z _ _ H) as [(r & Hr & Hb)|(p & Hp & He)].
      * left. exists r. split; [now right|]. unfold zlen in *. lia.
      * right. exists p. split; [now right|exact He].
Qed.
Lemma nth_glue_in l : forall s i r x, nth_error (spans_from s l) i = Some r -> nth_error l i = Some x ->
  forall k, (fst r <= s + Z.of_nat k < snd r)%Z -> nth_error (glue l) k = nth_error (fst x) (Z.to_nat (s + Z.of_nat k - fst r)).
Proof.
  induction l as [|[a b] l IH]; intros s [|i] r x Hr Hx k Hk; try discriminate; cbn [spans_from nth_error] in Hr, Hx; cbn [glue].
  - injection Hr as <-. injection Hx as <-. cbn [fst snd] in *. rewrite nth_error_app1 by (unfold zlen in Hk; lia). f_equal. lia.
  - assert (Hs : (s + zlen a + zlen b <= fst r)%Z).
    { clear -Hr. assert (G : forall m z j w, nth_error (spans_from z m) j = Some w -> (z <= fst w)%Z).
      { induction m as [|[a' b'] l' IH']; intros s' [|i'] r' H; try discriminate; cbn [spans_from nth_error] in H.
        - injection H as <-. cbn. lia.
        - apply IH' in H. pose proof (zlen_nonneg a'). pose proof (zlen_nonneg b'). lia. }
      exact (G _ _ _ _ Hr). }
    destruct l as [|z l]; [destruct i; discriminate|].
    unfold zlen in *. rewrite nth_error_app2, nth_error_app2 by lia.
    rewrite (IH (s + Z.of_nat (length a) + Z.of_nat (length b))%Z i r x Hr Hx) by lia. f_equal. lia.
Qed.

Section Cover.
Context {A : Type}.
Implicit Types q : seqw A.
Lemma combine_nth {X Y} (l : list X) (m : list Y) i x y : nth_error l i = Some x -> nth_error m i = Some y -> nth_error (combine l m) i = Some (x, y).
Proof. revert m i. induction l as [|a l IH]; intros [|b m] [|i] H1 H2; try discriminate; cbn in *; [congruence|auto]. Qed.
Lemma placed_cover q k e : nth_error (seq_text q) k = Some e ->
  (exists p, In p (placed q) /\ (fst (snd p) <= Z.of_nat k < snd (snd p))%Z) \/ exists t, In t q /\ In e (w_ws t).
Proof.
  rewrite seq_text_eq. intros H. destruct (glue_cover _ 0%Z _ _ H) as [(r & Hr & Hb)|(x & Hx & He)].
  - left. apply In_nth_error in Hr as [i Hr]. rewrite spans_eq in Hr.
    assert (Hi : i < length q). { rewrite <- (pieces_length q), <- spans_length. apply nth_error_Some. congruence. }
    apply nth_error_Some in Hi. destruct (nth_error q i) as [t|] eqn:Et; [|congruence].
    exists (t, r). split; [|exact Hb]. eapply nth_error_In. unfold placed. apply combine_nth; eassumption.
  - right. unfold pieces in Hx. apply in_map_iff in Hx as (t & <- & Ht). exists t. auto.
Qed.
(** a character that is in no token is in a gap *)
Lemma all_cover sep (qs : list (seqw A)) k e : nth_error (seqs_text sep [] qs) k = Some e ->
  (exists p, In p (all_placed sep qs) /\ (fst (snd p) <= Z.of_nat k < snd (snd p))%Z) \/
  In e sep \/ exists q t, In q qs /\ In t q /\ In e (w_ws t).
Proof.
  unfold seqs_text. rewrite seqs_joined_eq. cbn [fst]. set (l := map (fun q => (seq_text q, sep)) qs). intros H.
  destruct (glue_cover _ 0%Z _ _ H) as [(r & Hr & Hb)|(x & Hx & He)].
  - apply In_nth_error in Hr as [i Hr].
    assert (Hi : i < length qs). { unfold l in Hr. rewrite spans_eq in Hr. rewrite <- (map_length (fun q => (seq_text q, sep)) qs), <- spans_length. apply nth_error_Some. congruence. }
    apply nth_error_Some in Hi. destruct (nth_error qs i) as [q|] eqn:Eq; [|congruence].
    assert (El : nth_error l i = Some (seq_text q, sep)) by (unfold l; rewrite nth_error_map, Eq; reflexivity).
    rewrite (nth_glue_in l 0%Z i r _ Hr El k Hb) in H. cbn [fst] in H.
    destruct (placed_cover q _ _ H) as [(p & Hp & Hpb)|(t & Ht & He)].
    + left. exists (shift (fst r) p). split.
      * unfold all_placed. apply in_flat_map. exists (q, r). split; [eapply nth_error_In; apply combine_nth; [exact Eq|]; fold l; rewrite <- spans_eq; exact Hr|].
        cbn [fst snd]. now apply in_map.
      * unfold shift. cbn [fst snd]. lia.
    + right. right. exists q, t. split; [eapply nth_error_In; exact Eq|auto].
  - right. left. unfold l in Hx. apply in_map_iff in Hx as (q & <- & _). exact He.
Qed.
End Cover.

(* ---------------------------------------------------------------- *)
(** ** Tagging tokens *)
Section Tagging.
Variable sp : N -> bool.
Variable c : config.
Lemma full_tag_field name b : name <> [] -> full_tag c name b = field_tag c name b.
Proof.
  intros Hn. destruct name as [|e name]; [congruence|]. unfold full_tag, field_tag, add_tag_prefix. destruct (cf_begin_prefix c); [|reflexivity].
  destruct b; reflexivity.
Qed.
Section Level.
Variable lv : level.
Variable set : nat * nat -> ostr -> doc -> doc.
Hypothesis set_ok : forall p v d q, match tok_at d q with
  | None => tok_at (set p v d) q = None
  | Some t => exists t', tok_at (set p v d) q = Some t' /\ same_text t t' /\
      (forall lv', given lv' t' = if lv_eqb lv lv' && (Nat.eqb (fst p) (fst q) && Nat.eqb (snd p) (snd q)) then v else given lv' t)
  end.
Lemma fold_marks (marks : list ((nat * nat) * ostr)) : forall d, NoDup (map fst marks) ->
  forall q, let d' := fold_left (fun d x => set (fst x) (snd x) d) marks d in
  match tok_at d q with
  | None => tok_at d' q = None
  | Some t => exists t', tok_at d' q = Some t' /\ same_text t t' /\
      (forall lv', lv' <> lv -> given lv' t' = given lv' t) /\
      (~ In q (map fst marks) -> given lv t' = given lv t) /\
      (forall v, In (q, v) marks -> given lv t' = v)
  end.
Proof.
  induction marks as [|[p v] marks IH]; intros d Hn q; cbn zeta.
  - cbn. destruct (tok_at d q) as [t|]; [|reflexivity]. exists t. repeat split; auto. intros v [].
  - cbn [map fst snd fold_left] in *. inversion Hn as [|? ? Hp Hn']; subst. specialize (IH (set p v d) Hn' q). cbn zeta in IH.
    pose proof (set_ok p v d q) as K. destruct (tok_at d q) as [t|]; [|rewrite K in IH; exact IH].
    destruct K as (t1 & E1 & S1 & G1). rewrite E1 in IH. destruct IH as (t' & E' & S' & O' & N' & I').
    exists t'. split; [exact E'|]. split; [eapply same_text_trans; eassumption|]. split; [|split].
    + intros lv' Hl. rewrite O' by exact Hl. rewrite G1. destruct (lv_eqb lv lv') eqn:El; [apply lv_eqb_true in El; congruence|reflexivity].
    + intros Hq. rewrite N' by (intros H; apply Hq; now right). rewrite G1.
      replace (lv_eqb lv lv) with true by (symmetry; now apply lv_eqb_true). cbn [andb].
      destruct (Nat.eqb (fst p) (fst q) && Nat.eqb (snd p) (snd q)) eqn:Ep; [|reflexivity]. apply pos_eqb in Ep. exfalso. apply Hq. now left.
    + intros w [E|Hw]; [|now apply I']. injection E as -> ->. rewrite N' by exact Hp. rewrite G1.
      replace (lv_eqb lv lv) with true by (symmetry; now apply lv_eqb_true).
      replace (Nat.eqb (fst q) (fst q) && Nat.eqb (snd q) (snd q)) with true by (symmetry; now apply pos_eqb). reflexivity.
Qed.
Lemma firsts_map {X} (ps : list X) : map fst (firsts ps) = ps.
Proof. destruct ps as [|p ps]; [reflexivity|]. cbn [firsts map fst]. rewrite map_map. f_equal. apply map_id. Qed.
Lemma firsts_nth {X} (ps : list X) k q : nth_error ps k = Some q -> In (q, Nat.eqb k 0) (firsts ps).
Proof.
  destruct ps as [|p ps]; [destruct k; discriminate|]. destruct k as [|k]; cbn [nth_error firsts]; intros H.
  - injection H as ->. now left.
  - right. apply in_map_iff. exists q. split; [reflexivity|]. eapply nth_error_In. exact H.
Qed.
Lemma tagging name ps d : name <> [] -> NoDup ps ->
  tagged_exactly c lv name ps d (fold_left (fun d x => set (fst x) (full_tag c name (snd x)) d) (firsts ps) d).
Proof.
  intros Hn Hd q.
  assert (E : fold_left (fun d x => set (fst x) (full_tag c name (snd x)) d) (firsts ps) d =
    fold_left (fun d x => set (fst x) (snd x) d) (map (fun x => (fst x, full_tag c name (snd x))) (firsts ps)) d).
  { generalize (firsts ps) as l. intros l. revert d. induction l as [|x l IH]; intros d; [reflexivity|]. cbn [fold_left map fst snd]. apply IH. }
  rewrite E. pose proof (fold_marks (map (fun x => (fst x, full_tag c name (snd x))) (firsts ps)) d) as G.
  rewrite map_map in G. cbn [fst] in G. change (fun x : nat * nat * bool => fst x) with (@fst (nat * nat) bool) in G. rewrite firsts_map in G.
  specialize (G Hd q). cbn zeta in G. destruct (tok_at d q) as [t|]; [|exact G]. destruct G as (t' & E' & S' & O' & N' & I').
  exists t'. repeat split; try assumption; try apply S'. intros k Hk. rewrite <- full_tag_field by exact Hn. apply I'.
  apply in_map_iff. exists (q, Nat.eqb k 0). split; [reflexivity|now apply firsts_nth].
Qed.
End Level.

Lemma set_main_ok p v d q : match tok_at d q with
  | None => tok_at (set_main sp c p v d) q = None
  | Some t => exists t', tok_at (set_main sp c p v d) q = Some t' /\ same_text t t' /\
      (forall lv', given lv' t' = if lv_eqb LMain lv' && (Nat.eqb (fst p) (fst q) && Nat.eqb (snd p) (snd q)) then v else given lv' t)
  end.
Proof.
  unfold set_main. destruct (cf_preserve_sub c).
  - rewrite tok_at_only. destruct (tok_at d q) as [t|]; [|reflexivity]. cbn [option_map]. eexists. split; [reflexivity|].
    destruct (Nat.eqb (fst p) (fst q) && Nat.eqb (snd p) (snd q)).
    + split; [apply set_tag_only_text|]. intros lv'. rewrite andb_true_r. apply given_set.
    + split; [apply same_text_refl|]. intros lv'. now rewrite andb_false_r.
  - destruct (tok_at d q) as [t|] eqn:E; [|now apply tok_at_set_none].
    destruct (set_any sp LMain p v d q t E) as (t' & E' & S' & G' & _). exists t'. auto.
Qed.
Lemma set_sub_ok p v d q : match tok_at d q with
  | None => tok_at (set_tag sp LSub p v d) q = None
  | Some t => exists t', tok_at (set_tag sp LSub p v d) q = Some t' /\ same_text t t' /\
      (forall lv', given lv' t' = if lv_eqb LSub lv' && (Nat.eqb (fst p) (fst q) && Nat.eqb (snd p) (snd q)) then v else given lv' t)
  end.
Proof.
  destruct (tok_at d q) as [t|] eqn:E; [|now apply tok_at_set_none].
  destruct (set_any sp LSub p v d q t E) as (t' & E' & S' & G' & _). exists t'. auto.
Qed.
End Tagging.

(* ---------------------------------------------------------------- *)
(** ** Pending tokens *)
Section Pending.
Variables (sp : N -> bool) (lower : str -> str).
Variable d : doc.
Lemma wrap_toks f ps : map w_tok (wrap sp f d ps) = filter (fun p => match tok_at d p with Some _ => true | None => false end) ps.
Proof.
  induction ps as [|p ps IH]; [reflexivity|]. cbn [wrap flat_map filter]. rewrite map_app. unfold wrap in IH. rewrite IH, at_pos_eq.
  destruct (tok_at d p); reflexivity.
Qed.
Lemma map_filter_sub {X Y} (g : X -> Y) (f : X -> bool) l : NoDup (map g l) -> NoDup (map g (filter f l)).
Proof.
  induction l as [|x l IH]; intros H; [constructor|]. cbn [map filter] in *. inversion H as [|? ? Hx Hl]; subst.
  destruct (f x); cbn [map]; [|now apply IH]. constructor; [|now apply IH]. intros Hi. apply Hx. apply in_map_iff in Hi as (y & Ey & Hy).
  apply filter_In in Hy as [Hy _]. rewrite <- Ey. now apply in_map.
Qed.
Lemma sub_sequences_concat {X} (tagged : X -> bool) l : concat (untagged_sub_sequences tagged l) = filter (fun t => negb (tagged t)) l.
Proof.
  destruct l as [|x l]; [reflexivity|]. eapply Runs_concat. apply (C14_runs tagged (x :: l)). discriminate.
Qed.
Lemma pending_concat {X} (tagged : X -> bool) n qs : exists rest,
  filter (fun t => negb (tagged t)) (concat qs) = concat (pending_sequences tagged n qs) ++ rest.
Proof.
  destruct (C14_limit tagged n qs) as (rest & E & _). exists (concat rest). rewrite <- concat_app, <- E. unfold pending_sequences. clear E.
  induction qs as [|q qs IH]; [reflexivity|]. cbn [concat flat_map]. rewrite filter_app, concat_app, sub_sequences_concat. now rewrite IH.
Qed.
Lemma touched_incl text r p : In p (touched text r) -> exists q t, In q text /\ In t q /\ w_tok t = p.
Proof.
  unfold touched. intros H. apply in_map_iff in H as (x & <- & Hx). apply filter_In in Hx as [Hx _].
  apply (in_map fst) in Hx. destruct (C13_tokens [10%N] text) as (E & _). rewrite E in Hx. apply in_concat in Hx as (q & Hq & Ht). eauto.
Qed.
Lemma text_toks f qs : map w_tok (concat (map (wrap sp f d) qs)) =
  filter (fun p => match tok_at d p with Some _ => true | None => false end) (concat qs).
Proof.
  induction qs as [|q qs IH]; [reflexivity|]. cbn [map concat]. rewrite map_app, filter_app, IH. f_equal. apply wrap_toks.
Qed.
Lemma touched_NoDup n qs r : NoDup (concat qs) -> NoDup (touched (pending_text sp lower n d qs) r).
Proof.
  intros H. unfold touched. rewrite <- map_map with (f := fst) (g := w_tok).
  assert (G : forall l : list (wtoken (nat * nat) * irange), NoDup (map w_tok (map fst l)) -> NoDup (map w_tok (map fst (filter (fun p => overlaps (snd p) r) l)))).
  { intros l. rewrite !map_map. apply map_filter_sub. }
  apply G. destruct (C13_tokens [10%N] (pending_text sp lower n d qs)) as (E & _). rewrite E. unfold pending_text. rewrite text_toks.
  apply NoDup_filter. apply (NoDup_filter (fun t => negb (negb (untagged d t)))) in H.
  destruct (pending_concat (fun p => negb (untagged d p)) n qs) as (rest & E').
  assert (H' := H). rewrite E' in H'. revert H'. generalize (concat (pending_sequences (fun p => negb (untagged d p)) n qs)) as l.
  induction l as [|x l IH]; intros Hl; [constructor|]. cbn [app] in Hl. inversion Hl as [|? ? Hx Hl']; subst. constructor; [|now apply IH].
  intros Hi. apply Hx. apply in_or_app. now left.
Qed.
Lemma touched_untagged n qs r p : In p (touched (pending_text sp lower n d qs) r) -> untagged d p = true.
Proof.
  intros H. apply touched_incl in H as (q & t & Hq & Ht & <-). unfold pending_text in Hq. apply in_map_iff in Hq as (q0 & <- & Hq0).
  apply (in_map w_tok) in Ht. rewrite wrap_toks in Ht. apply filter_In in Ht as [Ht _].
  destruct (pending_concat (fun p => negb (untagged d p)) n qs) as (rest & E').
  assert (Hi : In (w_tok t) (filter (fun t => negb (negb (untagged d t))) (concat qs))).
  { rewrite E'. apply in_or_app. left. apply in_concat. eauto. }
  apply filter_In in Hi as [_ Hi]. now rewrite negb_involutive in Hi.
Qed.
Lemma touched_some n qs r p : In p (touched (pending_text sp lower n d qs) r) -> tok_at d p <> None.
Proof.
  intros H. apply touched_incl in H as (q & t & Hq & Ht & <-). unfold pending_text in Hq. apply in_map_iff in Hq as (q0 & <- & Hq0).
  apply (in_map w_tok) in Ht. rewrite wrap_toks in Ht. apply filter_In in Ht as [_ Ht]. now destruct (tok_at d (w_tok t)).
Qed.
End Pending.
Lemma line_words_NoDup sp d : forall i, NoDup (concat (line_words sp i d)) /\ forall p, In p (concat (line_words sp i d)) -> i <= fst p.
Proof.
  induction d as [|l d IH]; intros i; [split; [constructor|intros p []]|]. cbn [line_words concat]. destruct (IH (S i)) as [H1 H2].
  assert (G : forall p, In p (word_indices sp i 0 l) -> fst p = i) by (intros p Hp; apply word_indices_spec in Hp as (k & t & -> & _); reflexivity).
  split.
  - pose proof (word_indices_NoDup sp i l 0) as N. revert N G. generalize (word_indices sp i 0 l) as w. induction w as [|p w IHw]; intros N G; [exact H1|].
    cbn [app]. inversion N as [|? ? Hp N']; subst. constructor; [|apply IHw; [exact N'|intros q Hq; apply G; now right]].
    intros Hi. apply in_app_or in Hi as [Hi|Hi]; [contradiction|]. apply H2 in Hi. rewrite (G p) in Hi by now left. lia.
  - intros p Hp. apply in_app_or in Hp as [Hp|Hp]; [rewrite (G p Hp); lia|]. apply H2 in Hp. lia.
Qed.
Lemma initial_concat sp d : concat (initial_sequences sp d) = filter (untagged d) (concat (line_words sp 0 d)).
Proof.
  unfold initial_sequences. induction (line_words sp 0 d) as [|w l IH]; [reflexivity|]. cbn [map filter concat]. rewrite filter_app, <- IH.
  destruct (filter (untagged d) w); reflexivity.
Qed.
Lemma initial_NoDup sp d : NoDup (concat (initial_sequences sp d)).
Proof. rewrite initial_concat. apply NoDup_filter. apply line_words_NoDup. Qed.

(* ---------------------------------------------------------------- *)
(** ** The simple matcher *)
Section Matcher.
Variable lsm : str -> str -> list block.
Variable th : Q.
Variable b : libs.
Variable c : config.
Let libs_ := with_searches lsm difflib_blocks th b.
Notation sp := (lb_sp b).
Notation wd := (lb_wd b).
Notation norm := (normalise_str (lb_lower b)).
Notation text_at := (pending_text (lb_sp b) (lb_lower b)).

(** a value that is a single short word *)
Definition short_word (v : str) : Prop :=
  norm v <> [] /\ Forall (fun e => wd e = true) (norm v) /\ length (norm v) < 5 /\ cf_min_token_length c <= length v.
(** word characters are neither separators nor white space *)
Definition classes_ok : Prop := forall e, wd e = true -> in_chars e seps = false /\ sp e = false.
(** the field has no prefix pattern and no alternative spellings *)
Definition plain_field (name : str) : Prop :=
  tc_prefix_regex (get_tag_config c name) = None /\ tc_spellings (get_tag_config c name) = [].

Hypothesis Hexact : cf_exact c = 5.
Hypothesis Hth : (0 < th <= 1)%Q.
Hypothesis Hcl : classes_ok.

Lemma join_word n : n <> [] -> Forall (fun e => wd e = true) n -> split_and_join sp wd n = n.
Proof.
  intros Hn Hw. unfold split_and_join, split_nonword.
  assert (G : forall n cur, Forall (fun e => wd e = true) n -> split_nonword_go wd cur n = [rev cur ++ n]).
  { clear. induction n as [|e n IH]; intros cur H; [cbn; now rewrite app_nil_r|]. inversion H as [|? ? He H']; subst. cbn [split_nonword_go].
    rewrite He, IH by exact H'. cbn [rev]. now rewrite <- app_assoc. }
  rewrite G by exact Hw. cbn [rev app filter].
  assert (B : blank sp n = false).
  { destruct n as [|e n]; [congruence|]. apply Forall_inv in Hw. apply Hcl in Hw as [_ Hs]. unfold blank. cbn [forallb]. now rewrite Hs. }
  rewrite B. cbn [negb join_str]. reflexivity.
Qed.
Lemma word_no_seps n : Forall (fun e => wd e = true) n -> no_seps n.
Proof. apply Forall_impl. intros e He. now apply Hcl. Qed.

Notation chunks := (lb_chunks libs_).
(** The value is found at the first place where it is a whole word, or not at all. *)
Theorem C108_match h v mc x y : short_word v -> first_place h (norm v) x y ->
  matching_chunks sp wd (lb_lower b) chunks c h v mc = Ok (Some [(slen x, slen x + slen (norm v))%Z]).
Proof.
  intros (Hn & Hw & Hl & Hm) (W & F). unfold matching_chunks. rewrite Hexact.
  replace (Nat.ltb (length v) (cf_min_token_length c)) with false by (symmetry; apply Nat.ltb_ge; exact Hm).
  replace (Nat.ltb (length (norm v)) 5) with true by (symmetry; apply Nat.ltb_lt; exact Hl).
  rewrite replace_newlines. unfold libs_, with_searches. cbn [lb_chunks].
  pose proof (word_no_seps _ Hw) as Hs.
  pose proof (C107_short lsm (lb_alpha b) (S (length (spaced h))) [] (spaced h) (spaced x) (norm v) (spaced y) th 5 mc None Hn) as G.
  cbn [app] in G. unfold slen in *. cbn [length] in G. change (Z.of_nat 0) with 0%Z in G. rewrite G; clear G.
  - cbn [bind found]. rewrite spaced_length. do 3 f_equal.
  - lia.
  - apply Hth.
  - now apply whole_spaced.
  - intros x' y' W'. destruct (whole_unspaced _ _ _ _ Hs W') as (x2 & y2 & W2 & E2). rewrite spaced_length, <- E2. specialize (F x2 y2 W2). lia.
Qed.
Theorem C108_no_match h v mc : short_word v -> (forall x y, ~ whole_words seps h x (norm v) y) ->
  matching_chunks sp wd (lb_lower b) chunks c h v mc = Ok None.
Proof.
  intros (Hn & Hw & Hl & Hm) N. unfold matching_chunks. rewrite Hexact.
  replace (Nat.ltb (length v) (cf_min_token_length c)) with false by (symmetry; apply Nat.ltb_ge; exact Hm).
  replace (Nat.ltb (length (norm v)) 5) with true by (symmetry; apply Nat.ltb_lt; exact Hl).
  rewrite replace_newlines. unfold normalise. rewrite (join_word _ Hn Hw).
  pose proof (word_no_seps _ Hw) as Hs.
  assert (G : chunks (spaced h) (norm v) mc = Ok None).
  { unfold libs_, with_searches. cbn [lb_chunks].
    apply (C107_none lsm (lb_alpha b) (S (length (spaced h))) [] (spaced h) (norm v) th 5 mc None Hn Hs).
    - unfold slen. lia.
    - apply Hth.
    - discriminate.
    - intros x y W. destruct (whole_unspaced _ _ _ _ Hs W) as (x2 & y2 & W2 & _). exact (N x2 y2 W2). }
  rewrite G. reflexivity.
Qed.
Lemma ranges_found text name v subs x y : plain_field name -> short_word v -> first_place (text_of text) (norm v) x y ->
  matching_ranges sp wd (lb_lower b) chunks c text (mkTann name (VOne v) subs) = Ok [(slen x, slen x + slen (norm v))%Z].
Proof.
  intros [_ Hs] Hv F. unfold matching_ranges, spelling_chunks. cbn [an_name an_value]. rewrite (C108_match _ _ _ x y Hv F). reflexivity.
Qed.
Lemma ranges_none text name v subs : plain_field name -> short_word v -> (forall x y, ~ whole_words seps (text_of text) x (norm v) y) ->
  matching_ranges sp wd (lb_lower b) chunks c text (mkTann name (VOne v) subs) = Ok [].
Proof.
  intros [_ Hs] Hv F. unfold matching_ranges, spelling_chunks. cbn [an_name an_value]. rewrite (C108_no_match _ _ _ Hv F), Hs. reflexivity.
Qed.

(** The tokens of a place: there is one if gaps do not contain the characters of the value. *)
Theorem C108_touched h_text v x y : short_word v -> whole_words seps (text_of h_text) x (norm v) y ->
  (forall q t e, In q h_text -> In t q -> In e (w_ws t) -> wd e = false) ->
  touched h_text (slen x, slen x + slen (norm v))%Z <> [].
Proof.
  intros (Hn & Hw & Hl & Hm) (E & _) Hg. destruct (norm v) as [|e n] eqn:En; [congruence|]. apply Forall_inv in Hw.
  assert (Hnth : nth_error (seqs_text [10%N] [] h_text) (length x) = Some e).
  { unfold text_of in E. rewrite E, nth_error_app2, Nat.sub_diag by lia. reflexivity. }
  destruct (all_cover _ _ _ _ Hnth) as [(p & Hp & Hb)|[[<-|[]]|(q & t & Hq & Ht & He)]].
  - intros H0. assert (Hi : In (w_tok (fst p)) (touched h_text (slen x, slen x + slen (e :: n))%Z)).
    { unfold touched. apply (in_map (fun p => w_tok (fst p))). apply filter_In. split; [exact Hp|]. unfold overlaps. cbn [fst snd].
      unfold slen. cbn [length]. apply andb_true_iff. rewrite !Z.ltb_lt. lia. }
    rewrite H0 in Hi. destruct Hi.
  - apply Hcl in Hw as [Hw _]. discriminate Hw.
  - rewrite (Hg q t e Hq Ht He) in Hw. discriminate.
Qed.

Notation process := (process_one sp wd (lb_lower b) (lb_escape b) (lb_re_search b) chunks (lb_all libs_) c false).
Notation simple := (simple_annotate sp wd (lb_lower b) (lb_escape b) (lb_re_search b) chunks (lb_all libs_) c false).
(** the field without sub fields *)
Definition field (name v : str) : tann := mkTann name (VOne v) [].
Lemma range_ok n qs name v r d : name <> [] -> plain_field name -> NoDup (concat qs) ->
  exists d', foldM (range_step sp (lb_lower b) (lb_escape b) (lb_re_search b) (lb_all libs_) c false (text_at n d qs) (field name v)) d [r] = Ok d' /\
    tagged_exactly c LMain name (touched (text_at n d qs) r) d d'.
Proof.
  intros Hne [Hp _] Hn. cbn [foldM]. unfold range_step, with_prefix. cbn [field an_name an_subs]. rewrite Hp.
  assert (E : update_range sp c false (text_at n d qs) r name d =
    fold_left (fun d x => set_main sp c (fst x) (full_tag c name (snd x)) d) (firsts (touched (text_at n d qs) r)) d).
  { unfold update_range. destruct (C13_tokens [10%N] (text_at n d qs)) as (_ & _ & E). rewrite E. fold (touched (text_at n d qs) r).
    f_equal. f_equal. pose proof (touched_untagged sp (lb_lower b) d n qs r) as U. revert U. generalize (touched (text_at n d qs) r) as l.
    induction l as [|p l IH]; intros U; [reflexivity|]. cbn [filter]. rewrite (U p) by now left. f_equal. apply IH. intros q Hq. apply U. now right. }
  exists (update_range sp c false (text_at n d qs) r name d). split.
  - cbn [sub_annotations bind]. destruct (cf_use_sub c); reflexivity.
  - rewrite E. apply (tagging c LMain (set_main sp c)); [intros; apply set_main_ok|exact Hne|now apply touched_NoDup].
Qed.

(** One field in any state: if its value is a whole word of the tokens that are searched first, exactly
    the tokens of the first place get the tags of the field. *)
Theorem C108_step all s name v x y : name <> [] -> plain_field name -> short_word v -> NoDup (concat (st_seqs s)) ->
  let text := text_at (cf_lookahead c) (st_doc s) (st_seqs s) in
  first_place (text_of text) (norm v) x y ->
  exists d', process all s (field name v) = Ok (mkState d' (st_seqs s) (st_block s) (st_left s)) /\
    tagged_exactly c LMain name (touched text (slen x, slen x + slen (norm v))%Z) (st_doc s) d'.
Proof.
  intros Hne Hf Hv Hn text F. unfold process_one. fold text. unfold field at 1. rewrite (ranges_found text name v [] x y Hf Hv F). cbn [bind].
  destruct (range_ok (cf_lookahead c) (st_seqs s) name v (slen x, slen x + slen (norm v))%Z (st_doc s) Hne Hf Hn) as (d' & E & T).
  fold text in E, T. match goal with |- context [bind (foldM ?f ?a ?l) _] => replace (foldM f a l) with (@Ok doc d') by (symmetry; exact E) end. exists d'. split; [reflexivity|exact T].
Qed.
(** If it is a whole word only of all untagged tokens, and the block of the field has not been found
    yet, these get the tags. *)
Theorem C108_step_all all s name v x y : name <> [] -> plain_field name -> short_word v -> NoDup (concat all) ->
  (forall x y, ~ whole_words seps (text_of (text_at (cf_lookahead c) (st_doc s) (st_seqs s))) x (norm v) y) ->
  st_block s <> Some (block_name c name) ->
  let text := text_at 0 (st_doc s) all in
  first_place (text_of text) (norm v) x y ->
  exists d' seqs, process all s (field name v) = Ok (mkState d' seqs (Some (block_name c name)) (st_left s)) /\
    tagged_exactly c LMain name (touched text (slen x, slen x + slen (norm v))%Z) (st_doc s) d'.
Proof.
  intros Hne Hf Hv Hn N Hb text F. unfold process_one. unfold field at 1. rewrite (ranges_none _ name v [] Hf Hv N). cbn [bind].
  cbn [field an_name]. destruct (ostreq (st_block s) (Some (block_name c name))) eqn:Eb; [apply ostreq_true in Eb; congruence|].
  fold text. fold (field name v). unfold field at 1. rewrite (ranges_found text name v [] x y Hf Hv F). cbn [bind merge_index_ranges].
  destruct (range_ok 0 all name v (slen x, slen x + slen (norm v))%Z (st_doc s) Hne Hf Hn) as (d' & E & T).
  fold text in E, T. cbn [bind].
  match goal with |- context [bind (foldM ?f ?a ?l) _] => replace (foldM f a l) with (@Ok doc d') by (symmetry; exact E) end. eexists. eexists. split; [reflexivity|exact T].
Qed.
(** If it is a whole word of neither, the document stays as it is and the field is left over. *)
Theorem C108_step_none all s name v : plain_field name -> short_word v ->
  (forall x y, ~ whole_words seps (text_of (text_at (cf_lookahead c) (st_doc s) (st_seqs s))) x (norm v) y) ->
  st_block s = Some (block_name c name) \/ (forall x y, ~ whole_words seps (text_of (text_at 0 (st_doc s) all)) x (norm v) y) ->
  process all s (field name v) = Ok (mkState (st_doc s) (st_seqs s) (st_block s) (st_left s ++ [field name v])).
Proof.
  intros Hf Hv N N'. unfold process_one. unfold field at 1. rewrite (ranges_none _ name v [] Hf Hv N). cbn [bind field an_name].
  destruct (ostreq (st_block s) (Some (block_name c name))) eqn:Eb; [reflexivity|]. destruct N' as [N'|N']; [rewrite N' in Eb|].
  - assert (ostreq (Some (block_name c name)) (Some (block_name c name)) = true) by now apply ostreq_true. congruence.
  - fold (field name v). unfold field at 1. rewrite (ranges_none _ name v [] Hf Hv N'). reflexivity.
Qed.

(** *** One field of a document *)
Notation loop := (annotate_loop sp wd (lb_lower b) (lb_escape b) (lb_re_search b) chunks (lb_all libs_) c false).
Notation lines := (initial_sequences (lb_sp b)).
Lemma loop_one f d a d' seqs bl : process (lines d) (mkState d (lines d) None []) a = Ok (mkState d' seqs bl []) ->
  loop (S f) [a] d = Ok d'.
Proof.
  intros E. cbn [annotate_loop]. unfold process_targets. cbn [foldM]. rewrite E. cbn [bind st_left length Nat.eqb st_doc]. destruct f; reflexivity.
Qed.
(** The value is a whole word of the first untagged lines. *)
Theorem C108_field f d name v x y : name <> [] -> plain_field name -> short_word v -> cf_extend c = false ->
  let text := text_at (cf_lookahead c) d (lines d) in
  first_place (text_of text) (norm v) x y ->
  exists d', simple (S f) [field name v] d = Ok d' /\
    tagged_exactly c LMain name (touched text (slen x, slen x + slen (norm v))%Z) d d'.
Proof.
  intros Hne Hf Hv He text F.
  destruct (C108_step (lines d) (mkState d (lines d) None []) name v x y Hne Hf Hv (initial_NoDup sp d) F) as (d' & E & T).
  exists d'. split; [|exact T]. unfold simple_annotate. rewrite (loop_one f d _ _ _ _ E). cbn [bind]. now rewrite He.
Qed.
(** It is only a whole word of all untagged lines. *)
Theorem C108_field_later f d name v x y : name <> [] -> plain_field name -> short_word v -> cf_extend c = false ->
  (forall x y, ~ whole_words seps (text_of (text_at (cf_lookahead c) d (lines d))) x (norm v) y) ->
  let text := text_at 0 d (lines d) in
  first_place (text_of text) (norm v) x y ->
  exists d', simple (S f) [field name v] d = Ok d' /\
    tagged_exactly c LMain name (touched text (slen x, slen x + slen (norm v))%Z) d d'.
Proof.
  intros Hne Hf Hv He N text F.
  destruct (C108_step_all (lines d) (mkState d (lines d) None []) name v x y Hne Hf Hv (initial_NoDup sp d) N ltac:(discriminate) F) as (d' & seqs & E & T).
  exists d'. split; [|exact T]. unfold simple_annotate. rewrite (loop_one f d _ _ _ _ E). cbn [bind]. now rewrite He.
Qed.
(** It is no whole word of the untagged lines. *)
Theorem C108_field_none f d name v : plain_field name -> short_word v -> cf_extend c = false ->
  (forall x y, ~ whole_words seps (text_of (text_at (cf_lookahead c) d (lines d))) x (norm v) y) ->
  (forall x y, ~ whole_words seps (text_of (text_at 0 d (lines d))) x (norm v) y) ->
  simple (S f) [field name v] d = Ok d.
Proof.
  intros Hf Hv He N N'. pose proof (C108_step_none (lines d) (mkState d (lines d) None []) name v Hf Hv N (or_intror N')) as E.
  unfold simple_annotate. cbn [annotate_loop]. unfold process_targets. cbn [foldM]. rewrite E. cbn. now rewrite He.
Qed.

(** *** Sub fields *)
(** none of the tokens has a sub tag *)
Definition free (d : doc) (ps : list (nat * nat)) : Prop := forall p t, In p ps -> tok_at d p = Some t -> truthy (sub t) = false.
Definition place (text : list (seqw (nat * nat))) (v : str) (r : irange) : Prop :=
  exists x y, whole_words seps (lb_lower b (text_of text)) x (lb_lower b v) y /\ r = (slen x, slen x + slen (lb_lower b v))%Z.
Lemma free_test d ps : existsb (fun p => truthy (sub_tag d p)) ps = false <-> free d ps.
Proof.
  unfold free. rewrite <- not_true_iff_false, existsb_exists. unfold sub_tag. split.
  - intros N p t Hp Ht. destruct (truthy (sub t)) eqn:E; [|reflexivity]. exfalso. apply N. exists p. rewrite at_pos_eq, Ht. auto.
  - intros F (p & Hp & E). rewrite at_pos_eq in E. destruct (tok_at d p) as [t|] eqn:Et; [|discriminate]. rewrite (F p t Hp Et) in E. discriminate.
Qed.
Lemma first_free_spec text name rs d : name <> [] -> NoDup (map w_tok (concat text)) ->
  (forall r, In r rs -> ~ free d (touched text r)) /\ first_free sp c text name (map (fun r => Ok r) rs) d = Ok d \/
  exists rs1 r rs2 d', rs = rs1 ++ r :: rs2 /\ (forall r', In r' rs1 -> ~ free d (touched text r')) /\ free d (touched text r) /\
    first_free sp c text name (map (fun r => Ok r) rs) d = Ok d' /\ tagged_exactly c LSub name (touched text r) d d'.
Proof.
  intros Hne Hn. destruct (C13_tokens [10%N] text) as (Et & _ & E).
  induction rs as [|r rs IH]; [left; split; [intros r []|reflexivity]|]. cbn [map first_free]. rewrite E. fold (touched text r).
  destruct (existsb (fun p => truthy (sub_tag d p)) (touched text r)) eqn:Ex.
  - assert (N : ~ free d (touched text r)) by (rewrite <- free_test; congruence).
    destruct IH as [[H1 H2]|(rs1 & r1 & rs2 & d' & -> & H1 & H2 & H3 & H4)].
    + left. split; [|exact H2]. intros r' [<-|Hr]; auto.
    + right. exists (r :: rs1), r1, rs2, d'. split; [reflexivity|]. split; [|auto]. intros r' [<-|Hr]; auto.
  - right. exists [], r, rs. eexists. split; [reflexivity|]. split; [intros r' []|]. split; [now apply free_test|]. split; [reflexivity|].
    apply (tagging c LSub (set_tag sp LSub)); [intros; apply set_sub_ok|exact Hne|].
    unfold touched. rewrite <- map_map with (f := fst) (g := w_tok). rewrite <- Et in Hn. revert Hn. generalize (all_placed [10%N] text) as l. intros l.
    rewrite !map_map. apply map_filter_sub.
Qed.
(** A short sub field of one word gets the first of its places (as a whole word of the text) none of
    whose tokens has a sub tag yet; if there is none, nothing is tagged. *)
Theorem C108_sub text name v d : name <> [] -> NoDup (map w_tok (concat text)) ->
  lb_lower b v <> [] -> no_seps (lb_lower b v) -> length (lb_lower b v) < 5 ->
  exists d', sub_step sp (lb_lower b) (lb_all libs_) c text d (name, VOne v) = Ok d' /\
    ((exists r, place text v r /\ free d (touched text r) /\
        (forall r', place text v r' -> (fst r' < fst r)%Z -> ~ free d (touched text r')) /\
        tagged_exactly c LSub name (touched text r) d d') \/
     (forall r, place text v r -> ~ free d (touched text r)) /\ d' = d).
Proof.
  intros Hne Hn Hv Hs Hl. unfold sub_step. cbn [fst snd]. unfold libs_, with_searches. cbn [lb_all].
  destruct (C107_all lsm (lb_alpha b) (S (length (lb_lower b (text_of text)))) (lb_lower b (text_of text)) (lb_lower b v) th 5 1 None Hv Hs)
    as (l & El & Hin & Hsort); [unfold slen; lia|apply Hth|apply Hth|discriminate|lia|].
  rewrite El. rewrite <- map_map with (f := a_index_range) (g := fun r => Ok r). revert Hin Hsort. generalize (map a_index_range l) as rs. clear l El.
  intros rs Hin Hsort. destruct (first_free_spec text name rs d Hne Hn) as [[H1 H2]|(rs1 & r & rs2 & d' & E & H1 & H2 & H3 & H4)].
  - exists d. split; [exact H2|]. right. split; [|reflexivity]. intros r Hr. apply H1. apply Hin. exact Hr.
  - exists d'. split; [exact H3|]. left. exists r. split; [apply Hin; rewrite E; apply in_or_app; right; now left|]. split; [exact H2|].
    split; [|exact H4]. intros r' Hr' Hlt. apply H1. apply Hin in Hr'. rewrite E in Hr'. apply in_app_or in Hr' as [Hr'|[<-|Hr']]; [exact Hr'|lia|].
    exfalso. assert (Hr : place text v r) by (apply Hin; rewrite E; apply in_or_app; right; now left).
    destruct Hr as (x & y & _ & ->). rewrite E in Hsort. clear -Hsort Hr' Hlt. revert Hsort. induction rs1 as [|z rs1 IH]; cbn [app]; intros Hs.
    + inversion Hs as [|? ? _ F]; subst. rewrite Forall_forall in F. specialize (F _ Hr'). cbn [fst snd] in *. unfold slen in *. lia.
    + inversion Hs; subst. auto.
Qed.
End Matcher.

(* ---------------------------------------------------------------- *)
(** ** What the text is *)
(** The text of a line: the texts of its tokens without white space around them, normalised, each
    but the last one followed by the white space the token is known to have; a space if it is not known. *)
Section Text.
Variable sp : N -> bool.
(** how texts are normalised *)
Variable norm : str -> str.
Variable d : doc.
Inductive reads_as : list (nat * nat) -> str -> Prop :=
| reads_none : reads_as [] []
| reads_last p t : tok_at d p = Some t -> reads_as [p] (norm (strip sp (tx t)))
| reads_gap p t w q ps s : tok_at d p = Some t -> ws t = Some w \/ ws t = None /\ w = u " " -> reads_as (q :: ps) s ->
    reads_as (p :: q :: ps) (norm (strip sp (tx t)) ++ w ++ s).
(** the lines, one below the other *)
Inductive lines_read : list (list (nat * nat)) -> str -> Prop :=
| lines_none : lines_read [] []
| lines_last l s : reads_as l s -> lines_read [l] s
| lines_more l s m ls s' : reads_as l s -> lines_read (m :: ls) s' -> lines_read (l :: m :: ls) (s ++ 10%N :: s').
Lemma seq_text_glue (q : seqw (nat * nat)) : seq_text q = glue (map (fun t => (w_str t, w_ws t)) q).
Proof.
  unfold seq_text, seq_joined. rewrite C13_join by (right; now rewrite !map_length). f_equal. unfold gaps. destruct q as [|t q]; [reflexivity|]. cbn [map combine default_ws]. f_equal.
  induction q as [|t' q IH]; [reflexivity|]. cbn [map combine default_ws]. now rewrite IH.
Qed.
Lemma wrap_reads ps : Forall (fun p => tok_at d p <> None) ps -> reads_as ps (seq_text (wrap sp norm d ps)).
Proof.
  rewrite seq_text_glue. induction 1 as [|p ps Hp H IH]; [constructor|]. unfold wrap. cbn [flat_map]. fold (wrap sp norm d ps). rewrite at_pos_eq. destruct (tok_at d p) as [t|] eqn:E; [|congruence]. cbn [app map w_str w_ws glue].
  destruct ps as [|q ps]; [cbn; rewrite app_nil_r; now constructor|]. inversion H as [|? ? Hq _]; subst.
  destruct (map (fun t => (w_str t, w_ws t)) (wrap sp norm d (q :: ps))) as [|z l] eqn:F.
  - exfalso. unfold wrap in F. cbn [flat_map] in F. rewrite at_pos_eq in F. now destruct (tok_at d q).
  - rewrite <- F in IH |- *. apply reads_gap; [exact E| |exact IH]. destruct (ws t) as [w|]; [now left|right; now split].
Qed.
End Text.
Theorem C108_text sp lower d n qs : Forall (Forall (fun p => tok_at d p <> None)) (pending_sequences (fun p => negb (untagged d p)) n qs) ->
  lines_read sp (normalise lower) d (pending_sequences (fun p => negb (untagged d p)) n qs) (text_of (pending_text sp lower n d qs)).
Proof.
  unfold pending_text. generalize (pending_sequences (fun p => negb (untagged d p)) n qs) as ls. intros ls H. unfold text_of, seqs_text, seqs_joined.
  rewrite C13_join by now left. cbn [fst gaps]. induction H as [|l ls Hl H IH]; [constructor|]. cbn [map combine glue].
  destruct ls as [|m ls]; [cbn; rewrite app_nil_r; constructor; now apply wrap_reads|]. cbn [map combine] in IH |- *. apply lines_more; [now apply wrap_reads|exact IH].
Qed.

(* ---------------------------------------------------------------- *)
(** ** Examples *)
Definition ex_short_libs : libs :=
  mkLibs ascii_space ascii_word ascii_alpha ascii_digit lower_ascii (fun s => s) (fun _ => None) no_regex exact_chunks exact_all
    (fun _ _ => Ok []) no_regex [].
Definition ex_short_config : config := mkConfig 1 1 5 true false true false [].
Definition joined (s : string) : tok := mkTok (u s) None None None None (Some []).
(** the value is part of a word of the first line, and two tokens without space between them in the second *)
Definition ex_short_doc : doc :=
  [[word "Alph" None; word "xph" None]; [word "The" None; joined "p"; joined "H"; word "," None; word "pH" None]].
Lemma ex_classes : classes_ok ex_short_libs.
Proof.
  intros e H. cbn in *. assert (G : (N.ltb e 128 = true)%N).
  { destruct (N.ltb e 128) eqn:E; [reflexivity|]. exfalso. apply N.ltb_ge in E. revert H. unfold ascii_word, ascii_alpha, ascii_upper, ascii_lower, ascii_digit.
    rewrite !orb_true_iff, !andb_true_iff, ?N.leb_le, ?N.eqb_eq. lia. }
  apply N.ltb_lt in G. assert (E : e = N.of_nat (N.to_nat e)) by lia. revert H. rewrite E. assert (L : N.to_nat e < 128) by lia. revert L. generalize (N.to_nat e) as k. clear.
  intros k L. do 128 (destruct k as [|k]; [vm_compute; intros; split; congruence|]). lia.
Qed.
Example C108_ex_field : exists d',
  simple_annotate ascii_space ascii_word lower_ascii (fun s => s) no_regex
    (lb_chunks (with_searches no_lsm difflib_blocks (8 # 10) ex_short_libs)) (lb_all (with_searches no_lsm difflib_blocks (8 # 10) ex_short_libs))
    ex_short_config false 1 [field (u "k") (u "pH")] ex_short_doc = Ok d' /\
  map (map tag) d' = [[None; None]; [None; Some (u "b-k"); Some (u "i-k"); None; None]].
Proof. eexists. split; vm_compute; reflexivity. Qed.
Notation ex_text n := (pending_text ascii_space lower_ascii n ex_short_doc (initial_sequences ascii_space ex_short_doc)).
Example C108_ex_hyps : short_word ex_short_libs ex_short_config (u "pH") /\ plain_field ex_short_config (u "k") /\
  (forall x y, ~ whole_words seps (text_of (ex_text 1)) x (u "ph") y) /\
  first_place (text_of (ex_text 0)) (u "ph") (u "alph xph" ++ [10%N] ++ u "the ") (u ", ph") /\
  touched (ex_text 0) (13, 15)%Z = [(1, 1); (1, 2)].
Proof.
  split; [|split; [|split; [|split]]].
  - repeat split; try discriminate; vm_compute; [repeat constructor|lia|lia].
  - split; reflexivity.
  - apply no_place; [discriminate|repeat constructor|]. intros H. vm_compute in H. repeat destruct H as [H|H]; try discriminate. destruct H.
  - apply (first_tokens _ (u "ph") [u "alph"; u " "; u "xph"; [10%N]; u "the"; u " "] [u ","; u " "; u "ph"]); [discriminate|repeat constructor|vm_compute; reflexivity|].
    intros H. repeat destruct H as [H|H]; try discriminate. destruct H.
  - vm_compute. reflexivity.
Qed.
(** in the first lines; nothing found: part of a word only *)
Example C108_ex_first : exists d', forall f, 
  simple_annotate ascii_space ascii_word lower_ascii (fun s => s) no_regex
    (lb_chunks (with_searches no_lsm difflib_blocks (8 # 10) ex_short_libs)) (lb_all (with_searches no_lsm difflib_blocks (8 # 10) ex_short_libs))
    ex_short_config false (S f) [field (u "k") (u "XpH")] ex_short_doc = Ok d' /\
  map (map tag) d' = [[None; Some (u "b-k")]; [None; None; None; None; None]].
Proof. eexists. intros f. split; [destruct f; vm_compute; reflexivity|vm_compute; reflexivity]. Qed.
Example C108_ex_none :
  simple_annotate ascii_space ascii_word lower_ascii (fun s => s) no_regex
    (lb_chunks (with_searches no_lsm difflib_blocks (8 # 10) ex_short_libs)) (lb_all (with_searches no_lsm difflib_blocks (8 # 10) ex_short_libs))
    ex_short_config false 1 [field (u "k") (u "lph")] ex_short_doc = Ok ex_short_doc /\
  (forall x y, ~ whole_words seps (text_of (ex_text 0)) x (u "lph") y).
Proof.
  split; [vm_compute; reflexivity|]. apply no_place; [discriminate|repeat constructor|]. intros H. vm_compute in H. repeat destruct H as [H|H]; try discriminate. destruct H.
Qed.
(** sub fields: the first place has a sub tag, the second is taken *)
Definition ex_sub_doc : doc := [[mkTok (u "Al") None (Some (u "b-x")) None None (Some (u " ")); word "B" None; word "al" None; word "AL" None]].
Example C108_ex_sub :
  let text := [wrap ascii_space (fun s => s) ex_sub_doc [(0, 0); (0, 1); (0, 2); (0, 3)]] in
  NoDup (map w_tok (concat text)) /\
  place ex_short_libs text (u "Al") (0, 2)%Z /\ place ex_short_libs text (u "Al") (5, 7)%Z /\
  exists d', sub_step ascii_space lower_ascii (lb_all (with_searches no_lsm difflib_blocks (8 # 10) ex_short_libs)) ex_short_config text ex_sub_doc (u "k", VOne (u "Al")) = Ok d' /\
    map (map sub) d' = [[Some (u "b-x"); None; Some (u "b-k"); None]].
Proof.
  cbn zeta. split; [|split; [|split]].
  - vm_compute. repeat constructor; cbn; intros H; repeat destruct H as [H|H]; try discriminate; destruct H.
  - exists [], (u " b al al"). split; [|reflexivity]. split; [vm_compute; reflexivity|]. split; [now left|]. right. right. right. exists 32%N, (u "b al al"). split; reflexivity.
  - exists (u "al b "), (u " al"). split; [|reflexivity]. split; [vm_compute; reflexivity|]. split.
    + right. right. left. exists (u "al b"), 32%N. split; reflexivity.
    + right. right. right. exists 32%N, (u "al"). split; reflexivity.
  - eexists. split; vm_compute; reflexivity.
Qed.

(** white space that is not known is a space *)
Example C108_ex_text :
  let d := [[mkTok (u " A") None None None None None; joined "b"; word "C" None]; [word "D" (Some (u "b-x"))]; [word "E" None]] in
  text_of (pending_text ascii_space lower_ascii 0 d (initial_sequences ascii_space d)) = u "a bc" ++ 10%N :: u "e" /\
  Forall (Forall (fun p => tok_at d p <> None)) (pending_sequences (fun p => negb (untagged d p)) 0 (initial_sequences ascii_space d)).
Proof. cbn zeta. split; [vm_compute; reflexivity|]. vm_compute. repeat constructor; discriminate. Qed.

Print Assumptions C108_cases.
Print Assumptions C108_match.
Print Assumptions C108_no_match.
Print Assumptions C108_touched.
Print Assumptions C108_step.
Print Assumptions C108_step_all.
Print Assumptions C108_step_none.
Print Assumptions C108_field.
Print Assumptions C108_field_later.
Print Assumptions C108_field_none.
Print Assumptions C108_sub.
Print Assumptions C108_text.
