(** C21, C22, C23: segmentation. *)
From Coq Require Import Permutation Sorted.
From Verif Require Import Base ModelTags ModelTei ModelTeiDoc SpecTeiWrite SpecTeiDoc ProofTeiDoc ModelClusters PropClusters ModelSegmentation.
Open Scope Z_scope.

(** ** Counting *)
Section Count.
Context {A : Type} (eqb : A -> A -> bool).
Hypothesis eqb_spec : forall x y, eqb x y = true <-> x = y.

Definition occurrences (x : A) (l : list A) : Z := count_of eqb x l.
Lemma distinct_In l : forall seen x, In x (distinct eqb seen l) <-> In x l /\ ~ In x seen.
Proof.
  induction l as [|y l IH]; intros seen x; cbn [distinct]; [cbn; tauto|].
  assert (E : existsb (eqb y) seen = true <-> In y seen).
  { rewrite existsb_exists. split; [intros (z & H1 & H2); apply eqb_spec in H2; now subst | intros H; exists y; split; [exact H | now apply eqb_spec]]. }
  destruct (existsb (eqb y) seen) eqn:X.
  - rewrite IH. cbn [In]. assert (In y seen) by tauto. split; [tauto|]. intros [[<-|H1] H2]; [easy | auto].
  - cbn [In]. rewrite IH, in_app_iff. cbn [In]. assert (Hn : ~ In y seen) by (intros H; apply E in H; discriminate).
    split; [intros [<-|[H1 H2]]; [auto | split; [auto | tauto]]|]. intros [[H1|H1] H2]; [now left|].
    assert (D : eqb y x = true \/ eqb y x = false) by (destruct (eqb y x); auto). destruct D as [D|D]; [left; now apply eqb_spec|].
    right. split; [exact H1|]. intros [H|[H|[]]]; [easy|]. apply eqb_spec in H. congruence.
Qed.
Lemma distinct_NoDup l : forall seen, NoDup (distinct eqb seen l).
Proof.
  induction l as [|y l IH]; intros seen; cbn [distinct]; [constructor|]. destruct (existsb (eqb y) seen); [apply IH|].
  constructor; [|apply IH]. rewrite distinct_In, in_app_iff. cbn. tauto.
Qed.
Lemma most_common_In l x n : In (x, n) (most_common eqb l) <-> In x l /\ n = occurrences x l.
Proof.
  unfold most_common. rewrite (Permutation_in' eq_refl (sort_perm _ _)). rewrite in_map_iff. split.
  - intros (y & [= <- <-] & H). apply distinct_In in H as [H _]. split; [exact H | reflexivity].
  - intros [H ->]. exists x. split; [reflexivity|]. apply distinct_In. auto.
Qed.
Lemma most_common_sorted l : StronglySorted (fun a b => snd b <= snd a) (most_common eqb l).
Proof.
  assert (S : StronglySorted (PropClusters.le (fun a b : A * Z => snd b <=? snd a)) (most_common eqb l)).
  { apply sort_sorted; [intros a b; lia | intros a b c; lia]. }
  induction S as [|a m S IH F]; constructor; [exact IH|]. eapply Forall_impl; [|exact F]. unfold PropClusters.le. intros b Hb. apply Z.leb_le in Hb. exact Hb.
Qed.
Lemma most_common_keys l : NoDup (map fst (most_common eqb l)).
Proof.
  unfold most_common. eapply Permutation_NoDup; [apply Permutation_map, Permutation_sym, sort_perm|].
  rewrite map_map. cbn [fst]. rewrite map_id. apply distinct_NoDup.
Qed.
Lemma most_common_nil l : most_common eqb l = [] -> l = [].
Proof. intros H. destruct l as [|x l]; [reflexivity|]. assert (I : In (x, occurrences x (x :: l)) (most_common eqb (x :: l))) by (apply most_common_In; split; [now left | reflexivity]). now rewrite H in I. Qed.
Lemma occurrences_pos x l : In x l -> 1 <= occurrences x l.
Proof.
  intros H. unfold occurrences, count_of. induction l as [|y l IH]; [easy|]. cbn [filter]. destruct (eqb x y) eqn:E; [cbn [length]; lia|].
  destruct H as [->|H]; [|now apply IH]. assert (eqb x x = true) by now apply eqb_spec. congruence.
Qed.
End Count.

Section Segmentation.
Variable sp dg : N -> bool.
Variable parse_int : str -> option Z.

Lemma streq_iff x y : streq x y = true <-> x = y.
Proof. apply streq_true. Qed.
(** ** Lines *)
(** after every token of a line got a tag *)
Lemma set_all v n : forall j l, (j + n <= length l)%nat ->
  let l' := fold_left (fun l j => set_tag_line sp LMain j v l) (seq j n) l in
  Forall2 same_text l l' /\ forall k t, nth_error l' k = Some t -> (j <= k < j + n)%nat -> given LMain t = v.
Proof.
  induction n as [|n IH]; intros j l H; cbn [seq fold_left].
  - split; [apply Forall2_refl', same_text_refl|]. intros; lia.
  - specialize (IH (S j) (set_tag_line sp LMain j v l)). rewrite set_tag_line_length in IH. destruct IH as [I1 I2]; [lia|]. split.
    + eapply Forall2_trans'; [apply same_text_trans | apply set_tag_line_text | exact I1].
    + intros k t Hk Hr. destruct (Nat.eq_dec k j) as [->|Hne]; [|apply (I2 k t Hk); lia].
      clear I1 I2.
      assert (Q : forall m i l0 t0, (j < i)%nat -> nth_error l0 j = Some t0 -> exists t1, nth_error (fold_left (fun l j => set_tag_line sp LMain j v l) (seq i m) l0) j = Some t1 /\ given LMain t1 = given LMain t0).
      { induction m as [|m IHm]; intros i l0 t0 Hi H0; cbn [seq fold_left]; [now exists t0|].
        destruct (nth_error l0 i) as [ti|] eqn:E.
        - destruct (IHm (S i) (set_tag_line sp LMain i v l0) _ ltac:(lia) (set_tag_line_at sp LMain i v l0 ti j t0 E H0)) as (t1 & E1 & E2).
          exists t1. split; [exact E1|]. rewrite E2. destruct (Nat.eqb_spec j i); [lia|]. apply beside_given.
        - rewrite set_tag_line_out by exact E. apply IHm; [lia | exact H0]. }
      assert (exists tj, nth_error l j = Some tj) as (tj & Hj) by (destruct (nth_error l j) eqn:E; [eauto | apply nth_error_None in E; lia]).
      destruct (Q n (S j) _ _ ltac:(lia) (set_tag_line_at sp LMain j v l tj j tj Hj Hj)) as (t1 & E1 & E2).
      assert (t = t1) as -> by congruence. rewrite E2, Nat.eqb_refl. rewrite beside_given. reflexivity.
Qed.
Lemma set_line_spec v l : Forall2 same_text l (set_line_tokens_tag sp v l) /\ Forall (fun t => given LMain t = v) (set_line_tokens_tag sp v l).
Proof.
  destruct (set_all v (length l) 0 l (le_n _)) as [H1 H2]. split; [exact H1|]. apply Forall_forall. intros t Ht. apply In_nth_error in Ht as (k & Hk).
  apply (H2 k t Hk). assert (k < length (set_line_tokens_tag sp v l))%nat by (apply nth_error_Some; rewrite Hk; discriminate).
  assert (length l = length (set_line_tokens_tag sp v l)) by (clear - H1; unfold set_line_tokens_tag; induction H1; cbn; congruence). lia.
Qed.
Lemma clear_line_text l : Forall2 same_text l (clear_line_token_tags sp l).
Proof.
  unfold clear_line_token_tags. generalize (seq 0 (length l)). intros js. revert l. induction js as [|j js IH]; intros l; cbn [fold_left]; [apply Forall2_refl', same_text_refl|].
  eapply Forall2_trans'; [apply same_text_trans | | apply IH]. destruct (nth_error l j) as [t|]; [|apply Forall2_refl', same_text_refl].
  destruct (truthy (tag t)); [apply set_tag_line_text | apply Forall2_refl', same_text_refl].
Qed.


(** ** Segmentation *)
Definition tag_values (l : line) : list ostr := map (fun t => strip_tag_prefix (tag t)) (words_of sp l).
(** one of the most frequent tag values of the words of a line *)
Definition majority (l : line) (v : ostr) : Prop :=
  In v (tag_values l) /\ forall w, occurrences ostreq w (tag_values l) <= occurrences ostreq v (tag_values l).
(** the segmentation tag of a tag name: of the last entry that lists it *)
Definition maps_to (m : list (str * list str)) (name v : str) : Prop :=
  exists a ns b, m = a ++ (v, ns) :: b /\ In name ns /\ Forall (fun e => ~ In name (snd e)) b.
Definition unmapped (m : list (str * list str)) (name : str) : Prop := Forall (fun e => ~ In name (snd e)) m.
Lemma segmentation_tag_spec m n : match segmentation_tag_of m (Some n) with Some v => maps_to m n v | None => unmapped m n end.
Proof.
  cbn [segmentation_tag_of]. induction m as [|[v ns] m IH] using rev_ind; [constructor|]. rewrite rev_app_distr. cbn [rev app find snd].
  destruct (mem n ns) eqn:E; cbn [option_map fst].
  - exists m, ns, []. split; [reflexivity|]. split; [now apply mem_In | constructor].
  - assert (Hn : ~ In n ns) by (intros H; apply mem_In in H; congruence).
    destruct (option_map fst (find (fun e => mem n (snd e)) (rev m))) as [w|].
    + destruct IH as (a & ns' & b & -> & H1 & H2). exists a, ns', (b ++ [(v, ns)]). rewrite <- app_assoc. cbn [app]. repeat split; auto.
      apply Forall_app. split; [exact H2 | constructor; [exact Hn | constructor]].
    + apply Forall_app. split; [exact IH | constructor; [exact Hn | constructor]].
Qed.

Section Config.
Variable c : seg_config.
Definition segmentation_name (v : str) : Prop :=
  In v [u "front"; u "page"; u "headnote"; u "annex"; u "reference"; u "body"] \/ exists n, maps_to (sc_mapping c) n v.
(** the whole line has the tag *)
Definition whole_line (s : segline) (v : str) : Prop := Forall (fun t => given LMain t = Some v) (sl_line s) /\ segmentation_name v.
(** the line is as it was: its most frequent tag has no segmentation tag, or has the same
    name and the tags of references are to be kept *)
Definition left_alone (l : line) (s : segline) (v : str) : Prop :=
  sl_line s = l /\ majority l (Some v)
  /\ (unmapped (sc_mapping c) v \/ maps_to (sc_mapping c) v [] \/ (maps_to (sc_mapping c) v v /\ sc_no_merge_references c = true)).
Definition Inv (l : line) (s : segline) : Prop :=
  sl_text s = line_text sp l /\ Forall2 same_text l (sl_line s)
  /\ forall v, sl_tag s = Some v -> v <> [] -> whole_line s v \/ left_alone l s v.

Lemma inv_set l s v : Inv l s -> segmentation_name v -> Inv l (set_seg sp v s).
Proof.
  intros (H1 & H2 & H3) Hv. destruct (set_line_spec (Some v) (sl_line s)) as [E1 E2]. split; [exact H1|]. split.
  - eapply Forall2_trans'; [apply same_text_trans | exact H2 | exact E1].
  - intros w [= <-] _. left. split; [exact E2 | exact Hv].
Qed.
Lemma inv_clear l s : Inv l s -> Inv l (clear_seg sp s).
Proof.
  intros (H1 & H2 & H3). split; [exact H1|]. split.
  - eapply Forall2_trans'; [apply same_text_trans | exact H2 | apply clear_line_text].
  - discriminate.
Qed.
Lemma majority_first l m n rest : most_common ostreq (tag_values l) = (m, n) :: rest -> majority l m.
Proof.
  intros E. assert (I : In (m, n) (most_common ostreq (tag_values l))) by (rewrite E; now left).
  apply (most_common_In ostreq ostreq_true) in I as [I1 ->]. split; [exact I1|]. intros w.
  pose proof (most_common_sorted ostreq (tag_values l)) as S. rewrite E in S. inversion S as [|? ? _ F]; subst.
  assert (D : In w (tag_values l) \/ occurrences ostreq w (tag_values l) = 0).
  { destruct (existsb (ostreq w) (tag_values l)) eqn:X.
    - left. apply existsb_exists in X as (x & H1 & H2). apply ostreq_true in H2. now subst.
    - right. unfold occurrences, count_of. induction (tag_values l) as [|y l' IH]; [reflexivity|]. cbn [existsb filter] in *. apply orb_false_iff in X as [X1 X2]. rewrite X1.
      clear - X2. induction l' as [|z l' IH]; [reflexivity|]. cbn [existsb filter] in *. apply orb_false_iff in X2 as [X1 X2]. rewrite X1. auto. }
  destruct D as [D|D].
  - assert (J : In (w, occurrences ostreq w (tag_values l)) (most_common ostreq (tag_values l))) by (apply (most_common_In ostreq ostreq_true); auto).
    rewrite E in J. destruct J as [[= -> J]|J]; [lia|]. rewrite Forall_forall in F. apply (F _ J).
  - rewrite D. unfold occurrences, count_of. lia.
Qed.
Lemma inv_first l : Inv l (seg_first sp c l).
Proof.
  assert (B : forall w, Inv l (mkSeg l w (line_text sp l)) <-> forall v, w = Some v -> v <> [] -> whole_line (mkSeg l w (line_text sp l)) v \/ left_alone l (mkSeg l w (line_text sp l)) v).
  { intros w. split; [now intros (_ & _ & H)|]. intros H. split; [reflexivity|]. split; [apply Forall2_refl', same_text_refl | exact H]. }
  unfold seg_first. fold (tag_values l). destruct (most_common ostreq (tag_values l)) as [|[m n] rest] eqn:E; [apply B; discriminate|].
  apply majority_first in E. destruct m as [m|].
  - pose proof (segmentation_tag_spec (sc_mapping c) m) as Hm. destruct (segmentation_tag_of (sc_mapping c) (Some m)) as [[|x v]|].
    + cbn [oor truthy sl_line sl_text]. apply B. intros w [= ->] _. right. split; [reflexivity|]. split; [exact E|]. right. now left.
    + match goal with |- context [ostreq ?a ?b && sc_no_merge_references c] => destruct (ostreq a b && sc_no_merge_references c) eqn:K end.
      * apply andb_true_iff in K as [K1 K2]. apply ostreq_true in K1. injection K1 as K1. cbn [oor truthy sl_line sl_text]. apply B. intros w [= <-] _.
        right. split; [reflexivity|]. split; [now rewrite K1 | right; right; split; [|exact K2]]. now rewrite K1 in Hm |- *.
      * cbn [oor truthy]. assert (I0 : Inv l (mkSeg l None (line_text sp l))) by (apply B; discriminate).
        apply (inv_set l _ (x :: v) I0). right. now exists m.
    + cbn [oor truthy sl_line sl_text]. apply B. intros w [= ->] _. right. split; [reflexivity|]. split; [exact E|]. now left.
  - cbn [segmentation_tag_of oor truthy]. assert (I0 : Inv l (mkSeg l None (line_text sp l))) by (apply B; discriminate). apply (inv_clear l _ I0).
Qed.

(** the steps *)
Lemma F2_update {A B} (R : A -> B -> Prop) (f : B -> B) la : forall lb i, (forall a b, R a b -> R a (f b)) -> Forall2 R la lb -> Forall2 R la (update_nth i f lb).
Proof. intros lb i Hf H. revert i. induction H as [|a b la lb H H' IH]; intros [|i]; cbn [update_nth]; constructor; auto. Qed.
Lemma F2_map_r {A B} (R : A -> B -> Prop) (f : B -> B) la lb : (forall a b, R a b -> R a (f b)) -> Forall2 R la lb -> Forall2 R la (map f lb).
Proof. intros Hf. induction 1; constructor; auto. Qed.
Lemma inv_segs d v is : segmentation_name v -> forall ls, Forall2 Inv d ls -> Forall2 Inv d (set_segs sp v is ls).
Proof.
  intros Hv. induction is as [|i is IH]; intros ls H; [exact H|]. cbn [set_segs fold_left]. apply IH. apply F2_update; [|exact H]. intros; now apply inv_set.
Qed.
Lemma inv_clear_front max d ls : Forall2 Inv d ls -> forall b s i, Forall2 Inv d (clear_front sp max b s i ls).
Proof.
  induction 1 as [|l s d ls H H' IH]; intros b st i; cbn [clear_front]; constructor; auto. destruct (_ && _); [now apply inv_clear | exact H].
Qed.
Lemma inv_headers mx d ls : Forall2 Inv d ls -> Forall2 Inv d (find_page_headers sp dg mx ls).
Proof.
  intros H. unfold find_page_headers. set (tcs := most_common _ _). clearbody tcs.
  assert (G : forall tcs (m : option Z) ls, Forall2 Inv d ls -> Forall2 Inv d (snd (fold_left (header_step sp dg mx) tcs (m, ls)))); [|now apply G].
  clear. induction tcs as [|[t n] tcs IH]; intros m ls H; cbn [fold_left]; [exact H|]. cbn [header_step].
  destruct (negb _); [now apply IH|]. destruct (_ <=? _); apply IH; [exact H|]. unfold set_text. apply F2_map_r; [|exact H].
  intros a b Hab. destruct (streq _ _); [|exact Hab]. apply inv_set; [exact Hab|]. left. cbn. tauto.
Qed.
Lemma inv_merge preserve enabled remaining d ls : (forall v, In v enabled -> segmentation_name v) -> (forall v, In v remaining -> segmentation_name v) ->
  Forall2 Inv d ls -> Forall2 Inv d (merge_lines sp preserve enabled remaining ls).
Proof.
  intros He Hr H. unfold merge_lines.
  assert (G : forall ps cands prev ls, Forall2 Inv d ls -> Forall2 Inv d (snd (fold_left (merge_step sp preserve enabled) ps (cands, prev, ls)))).
  { clear - He. induction ps as [|[i s] ps IH]; intros cands prev ls H; cbn [fold_left]; [exact H|]. cbn [merge_step]. destruct (oin _ _); [now apply IH|].
    destruct (sl_tag s) as [v|].
    - destruct (mem v enabled) eqn:E; [apply IH, inv_segs; [apply He; now apply mem_In | exact H]|]. destruct (truthy (Some v)); [now apply IH|]. destruct (_ && _); now apply IH.
    - destruct (_ && _); now apply IH. }
  specialize (G (indexed 0 ls) [] (Some (u "front")) ls H). destruct (fold_left _ _ _) as [[cands prev] ls']. cbn [snd] in G.
  destruct cands as [|i cands]; [exact G|]. destruct prev as [v|]; [|exact G]. destruct (mem v remaining) eqn:E; [|exact G]. apply inv_segs; [apply Hr; now apply mem_In | exact G].
Qed.
Lemma inv_all preserve d : Forall2 Inv d (segment_lines sp dg parse_int c preserve d).
Proof.
  unfold segment_lines.
  assert (H : Forall2 Inv d (map (seg_first sp c) d)) by (induction d as [|l d IH]; constructor; [apply inv_first | exact IH]).
  set (ls1 := map (seg_first sp c) d) in *. clearbody ls1.
  assert (H2 : Forall2 Inv d (clear_front_after_threshold sp (sc_front_max c) ls1)) by (unfold clear_front_after_threshold; destruct (_ =? 0); [exact H | now apply inv_clear_front]).
  set (ls2 := clear_front_after_threshold sp (sc_front_max c) ls1) in *. clearbody ls2.
  assert (H3 : Forall2 Inv d (if preserve then apply_preserved_pages sp ls2 else ls2)).
  { destruct preserve; [|exact H2]. apply F2_map_r; [|exact H2]. intros a b Hab. destruct (_ && _); [|exact Hab]. apply inv_set; [exact Hab | left; cbn; tauto]. }
  set (ls3 := if preserve then _ else _) in *. clearbody ls3.
  assert (H4 : Forall2 Inv d (find_missing_pages sp dg parse_int ls3)) by (apply inv_segs; [left; cbn; tauto | exact H3]).
  pose proof (inv_headers (sc_header_max c) d _ H4) as H5.
  match goal with |- context [merge_lines sp preserve ?e ?r ?l] => assert (H6 : Forall2 Inv d (merge_lines sp preserve e r l)) end.
  { apply inv_merge; [| |exact H5]; intros v Hv; left; [destruct (sc_no_merge_references c)|]; cbn in Hv |- *; tauto. }
  destruct preserve; [exact H6|]. apply F2_map_r; [|exact H6]. intros a b Hab. destruct (seg_untagged b); [|exact Hab]. apply inv_set; [exact Hab | left; cbn; tauto].
Qed.

(** Every line ends up with a tag.  It is either a segmentation tag on every token of
    the line, or the line is left alone and has an unmapped (or kept) tag. *)
Theorem C21_every_line d i l : nth_error d i = Some l ->
  exists s v, nth_error (segment_lines sp dg parse_int c false d) i = Some s /\ nth_error (segmentation sp dg parse_int c false d) i = Some (sl_line s)
    /\ Forall2 same_text l (sl_line s) /\ v <> [] /\ (whole_line s v \/ left_alone l s v).
Proof.
  intros H. pose proof (inv_all false d) as A.
  assert (T : forall s, In s (segment_lines sp dg parse_int c false d) -> truthy (sl_tag s) = true).
  { unfold segment_lines. intros s Hs. apply in_map_iff in Hs as (x & <- & _). unfold seg_untagged. destruct (truthy (sl_tag x)) eqn:E; [exact E | reflexivity]. }
  assert (exists s, nth_error (segment_lines sp dg parse_int c false d) i = Some s /\ Inv l s) as (s & Hs & I1 & I2 & I3).
  { clear T. revert i H. induction A as [|a b la lb H1 H2 IH]; intros [|i] H; cbn in *; try discriminate; [injection H as ->; eauto | now apply IH]. }
  specialize (T s (nth_error_In _ _ Hs)). destruct (sl_tag s) as [v|] eqn:E; [|discriminate]. exists s, v. repeat split; auto.
  - unfold segmentation. now rewrite nth_error_map, Hs.
  - intros ->. discriminate.
  - apply I3; [reflexivity | intros ->; discriminate].
Qed.
(** The texts never change (with and without preserved tags). *)
Theorem C21_layout preserve d : same_layout d (segmentation sp dg parse_int c preserve d).
Proof.
  unfold same_layout, segmentation. pose proof (inv_all preserve d) as A. induction A as [|a b la lb (_ & H & _) H2 IH]; constructor; auto.
Qed.
End Config.
(** ** Which lines the later steps change *)
Lemma set_segs_at v is : forall ls k s, nth_error ls k = Some s ->
  exists s', nth_error (set_segs sp v is ls) k = Some s' /\ (~ In k is -> s' = s) /\ (In k is -> exists s0, s' = set_seg sp v s0 /\ sl_text s0 = sl_text s).
Proof.
  induction is as [|i is IH]; intros ls k s H; [exists s; repeat split; auto; intros []|]. cbn [set_segs fold_left].
  destruct (Nat.eq_dec i k) as [->|Hne].
  - destruct (IH (update_nth k (set_seg sp v) ls) k (set_seg sp v s)) as (s' & E1 & E2 & E3); [now rewrite update_nth_same, H|].
    exists s'. split; [exact E1|]. split; [intros Hn; exfalso; apply Hn; now left|]. intros _.
    destruct (in_dec Nat.eq_dec k is) as [I|I].
    + destruct (E3 I) as (s0 & -> & Et). exists s0. auto.
    + rewrite (E2 I). now exists s.
  - destruct (IH (update_nth i (set_seg sp v) ls) k s) as (s' & E1 & E2 & E3); [rewrite update_nth_other, H by congruence; reflexivity|].
    exists s'. split; [exact E1|]. split; [intros Hn; apply E2; intros Q; apply Hn; now right|]. intros [Hq|Hq]; [congruence | now apply E3].
Qed.
Lemma indexed_nth ls : forall i k s, In (k, s) (indexed i ls) <-> (i <= k)%nat /\ nth_error ls (k - i) = Some s.
Proof.
  induction ls as [|x ls IH]; intros i k s; cbn [indexed In].
  - split; [easy|]. intros [_ H]. destruct (k - i)%nat; discriminate.
  - rewrite IH. split.
    + intros [[= -> ->]|[H1 H2]]; [rewrite Nat.sub_diag; auto|]. split; [lia|]. replace (k - i)%nat with (S (k - S i)) by lia. exact H2.
    + intros [H1 H2]. destruct (Nat.eq_dec k i) as [->|Hne]; [rewrite Nat.sub_diag in H2; injection H2 as ->; now left|]. right. split; [lia|].
      replace (k - i)%nat with (S (k - S i)) in H2 by lia. exact H2.
Qed.

(** C22 *)
(** the number of a page; other texts have none *)
Definition shown_number (text : str) : Z := match parse_int text with Some n => n | None => -1 end.
Definition is_page (ls : list segline) (k : nat) (n : Z) : Prop :=
  exists s, nth_error ls k = Some s /\ sl_tag s = Some (u "page") /\ shown_number (sl_text s) = n.
(** [k] is the next line tagged as page after [m] *)
Definition no_page_between (ls : list segline) (m k : nat) : Prop := forall j n, (m < j < k)%nat -> ~ is_page ls j n.
Definition no_page_before (ls : list segline) (k : nat) : Prop := forall j n, (j < k)%nat -> ~ is_page ls j n.
(** the line may be a missing page number: untagged, only digits, between two pages
    ([k] is the second one, or the first page of all) *)
Definition gap_candidate (ls : list segline) (k i : nat) (n : Z) : Prop :=
  exists s, nth_error ls i = Some s /\ truthy (sl_tag s) = false /\ digits_only dg (sl_text s) = true /\ n = shown_number (sl_text s)
  /\ exists nk, (i < k)%nat /\ is_page ls k nk /\ n < nk
    /\ ((no_page_before ls k /\ 1 <= n) \/ (exists m nm, (m < i)%nat /\ is_page ls m nm /\ no_page_between ls m k /\ nm <= n)).
Definition may_be_page (ls : list segline) (i : nat) : Prop := exists k n, gap_candidate ls k i n.

Lemma numbers_In f ls n i : In (n, i) (numbers parse_int f ls) <-> exists s, nth_error ls i = Some s /\ f s = true /\ n = shown_number (sl_text s).
Proof.
  unfold numbers. rewrite in_map_iff. split.
  - intros ([k s] & [= <- <-] & H). apply filter_In in H as [H1 H2]. apply indexed_nth in H1 as [_ H1]. rewrite Nat.sub_0_r in H1. exists s. auto.
  - intros (s & H1 & H2 & ->). exists (i, s). split; [reflexivity|]. apply filter_In. split; [|exact H2]. apply indexed_nth. rewrite Nat.sub_0_r. split; [lia | exact H1].
Qed.
Lemma indexed_sorted ls : forall i, StronglySorted (fun p q => (fst p < fst q)%nat) (indexed i ls).
Proof.
  induction ls as [|x ls IH]; intros i; cbn [indexed]; constructor; auto. apply Forall_forall. intros [k s] H. apply indexed_nth in H as [H _]. cbn. lia.
Qed.
Lemma numbers_sorted f ls : StronglySorted (fun p q => (snd p < snd q)%nat) (numbers parse_int f ls).
Proof.
  unfold numbers. pose proof (indexed_sorted ls 0) as S. induction (indexed 0 ls) as [|p l IH]; [constructor|]. inversion S as [|? ? S1 F]; subst.
  cbn [filter]. destruct (f (snd p)); [|now apply IH]. cbn [map]. constructor; [now apply IH|]. apply Forall_forall. intros q Hq. apply in_map_iff in Hq as (r & <- & Hr).
  apply filter_In in Hr as [Hr _]. rewrite Forall_forall in F. cbn [snd]. now apply F.
Qed.
Lemma fill_gap_spec cands : forall lo hi mx mn i, In i (fill_gap lo hi mx mn cands) -> exists n, In (n, i) cands /\ (lo <= i <= hi)%nat /\ mn <= n <= mx.
Proof.
  induction cands as [|[n i] cs IH]; intros lo hi mx mn j H; cbn [fill_gap] in H; [easy|].
  destruct ((i <? lo)%nat || (hi <? i)%nat || (n <? mn) || (mx <? n)) eqn:E.
  - destruct (IH _ _ _ _ _ H) as (n' & H1 & H2 & H3). exists n'. split; [now right | auto].
  - rewrite !orb_false_iff in E. destruct E as [[[E1 E2] E3] E4]. apply Nat.ltb_ge in E1, E2. destruct H as [<-|H].
    + exists n. split; [now left|]. lia.
    + destruct (IH _ _ _ _ _ H) as (n' & H1 & H2 & H3). exists n'. split; [now right|]. lia.
Qed.
Lemma fill_gaps_spec ex : forall cands lo mn i, In i (fill_gaps lo mn ex cands) ->
  exists a nk k b n, ex = a ++ (nk, k) :: b /\ In (n, i) cands /\ (i <= k)%nat /\ n < nk
   /\ ((a = [] /\ (lo <= i)%nat /\ mn <= n) \/ exists a' nm m, a = a' ++ [(nm, m)] /\ (m <= i)%nat /\ nm <= n).
Proof.
  induction ex as [|[ne e] ex IH]; intros cands lo mn i H; cbn [fill_gaps] in H; [easy|]. apply in_app_or in H as [H|H].
  - apply fill_gap_spec in H as (n & H1 & H2 & H3). exists [], ne, e, ex, n. cbn [app]. repeat split; auto; try lia. left. repeat split; lia.
  - destruct (IH _ _ _ _ H) as (a & nk & k & b & n & -> & H1 & H2 & H3 & H4). exists ((ne, e) :: a), nk, k, b, n. cbn [app]. repeat split; auto. right.
    destruct H4 as [(-> & H5 & H6)|(a' & nm & m & -> & H5 & H6)].
    + exists [], ne, e. cbn. repeat split; auto. lia.
    + exists ((ne, e) :: a'), nm, m. cbn. auto.
Qed.
Lemma numbers_page ls n i : In (n, i) (numbers parse_int (fun s => ostreq (sl_tag s) (Some (u "page"))) ls) <-> is_page ls i n.
Proof.
  rewrite numbers_In. split; intros (s & H1 & H2 & H3); exists s; (split; [exact H1|]); [apply ostreq_true in H2; auto | split; [now apply ostreq_true | auto]].
Qed.
Lemma ss_app {A} (R : A -> A -> Prop) a b : StronglySorted R (a ++ b) -> forall x y, In x a -> In y b -> R x y.
Proof.
  induction a as [|z a IH]; intros S x y Hx Hy; [easy|]. cbn [app] in S. inversion S as [|? ? S1 F]; subst. destruct Hx as [->|Hx]; [|now apply IH].
  rewrite Forall_forall in F. apply F, in_or_app. now right.
Qed.

(** Gap filling: only lines that may be a missing page number become pages, all other
    lines stay as they are. *)
Theorem C22_missing_pages_partial ls i s : nth_error ls i = Some s ->
  exists s', nth_error (find_missing_pages sp dg parse_int ls) i = Some s'
  /\ (s' = s \/ (may_be_page ls i /\ sl_tag s' = Some (u "page") /\ Forall (fun t => given LMain t = Some (u "page")) (sl_line s') /\ sl_text s' = sl_text s)).
Proof.
  intros H. unfold find_missing_pages. destruct (set_segs_at (u "page") (missing_pages dg parse_int ls) ls i s H) as (s' & E1 & E2 & E3). exists s'. split; [exact E1|].
  destruct (in_dec Nat.eq_dec i (missing_pages dg parse_int ls)) as [I|I]; [|left; now apply E2]. right. destruct (E3 I) as (s0 & -> & Et). split.
  - clear E1 E2 E3 Et s0. unfold missing_pages in I. set (ex := numbers _ _ ls) in I. apply fill_gaps_spec in I as (a & nk & k & b & n & Ea & Hc & Hk & Hn & Hl).
    apply numbers_In in Hc as (s1 & H1 & H2 & ->). assert (s1 = s) as -> by congruence. apply andb_true_iff in H2 as [H2 H3]. unfold seg_untagged in H2. apply negb_true_iff in H2.
    assert (Pk : is_page ls k nk) by (apply numbers_page; fold ex; rewrite Ea; apply in_or_app; right; now left).
    assert (S : StronglySorted (fun p q => (snd p < snd q)%nat) ex) by apply numbers_sorted.
    assert (NP : forall n, ~ is_page ls i n) by (intros n' (s2 & Q1 & Q2 & _); assert (s2 = s) as -> by congruence; rewrite Q2 in H2; discriminate).
    assert (Hin : forall j nj, is_page ls j nj -> In (nj, j) a \/ (nj, j) = (nk, k) \/ In (nj, j) b).
    { intros j nj Hj. apply numbers_page in Hj. fold ex in Hj. rewrite Ea in Hj. apply in_app_or in Hj as [Hj|[Hj|Hj]]; auto. }
    assert (Hb : forall j nj, In (nj, j) b -> (k < j)%nat).
    { intros j nj Hj. rewrite Ea in S. change (a ++ (nk, k) :: b) with (a ++ [(nk, k)] ++ b) in S. rewrite app_assoc in S.
      apply (ss_app _ _ _ S (nk, k) (nj, j)); [apply in_or_app; right; now left | exact Hj]. }
    exists k. eexists. exists s. split; [exact H|]. split; [exact H2|]. split; [exact H3|]. split; [reflexivity|]. exists nk.
    assert (i < k)%nat by (destruct (Nat.eq_dec i k) as [->|]; [exfalso; now apply (NP nk) | lia]).
    split; [assumption|]. split; [exact Pk|]. split; [exact Hn|]. destruct Hl as [(-> & _ & Hl)|(a' & nm & m & -> & Hm & Hl)].
    + left. split; [|exact Hl]. intros j nj Hj Pj. destruct (Hin j nj Pj) as [[]|[[= _ ->]|Q]]; [lia|]. apply Hb in Q. lia.
    + right. exists m, nm. assert (Pm : is_page ls m nm) by (apply numbers_page; fold ex; rewrite Ea; apply in_or_app; left; apply in_or_app; right; now left).
      split; [destruct (Nat.eq_dec m i) as [->|]; [exfalso; now apply (NP nm) | lia]|]. split; [exact Pm|]. split; [|exact Hl].
      intros j nj Hj Pj. destruct (Hin j nj Pj) as [Q|[[= _ ->]|Q]]; [|lia|apply Hb in Q; lia].
      apply in_app_or in Q as [Q|[[= _ ->]|[]]]; [|lia]. rewrite Ea, <- app_assoc in S. assert (j < m)%nat; [|lia].
      apply (ss_app _ _ _ S (nj, j) (nm, m)); [exact Q | now left].
  - split; [reflexivity|]. split; [apply set_line_spec | exact Et].
Qed.



(** If the numbers in a gap increase, all of them become pages. *)
Lemma fill_gap_all lo hi mx mn0 cands : forall mn, mn0 <= mn ->
  (forall n i, In (n, i) cands -> (lo <= i <= hi)%nat -> mn0 <= n <= mx -> mn <= n) ->
  StronglySorted (fun p q => (lo <= snd p <= hi)%nat -> mn0 <= fst p <= mx -> (lo <= snd q <= hi)%nat -> mn0 <= fst q <= mx -> fst p < fst q) cands ->
  forall n i, In (n, i) cands -> (lo <= i <= hi)%nat -> mn0 <= n <= mx -> In i (fill_gap lo hi mx mn cands).
Proof.
  induction cands as [|[n i] cs IH]; intros mn Hm Hall S n' i' HI Hi Hn; [easy|]. inversion S as [|? ? S1 F]; subst. cbn [fill_gap]. rewrite Forall_forall in F.
  destruct ((i <? lo)%nat || (hi <? i)%nat || (n <? mn) || (mx <? n)) eqn:E.
  - destruct HI as [[= -> ->]|HI].
    + exfalso. pose proof (Hall n' i' (or_introl eq_refl) Hi Hn). rewrite !orb_true_iff in E. destruct E as [[[E|E]|E]|E]; [apply Nat.ltb_lt in E | apply Nat.ltb_lt in E | |]; lia.
    + apply (IH mn Hm) with (n := n'); auto. intros n2 i2 H2. apply Hall. now right.
  - rewrite !orb_false_iff in E. destruct E as [[[E1 E2] E3] E4]. apply Nat.ltb_ge in E1, E2. destruct HI as [[= -> ->]|HI]; [now left|]. right.
    apply (IH (mn + 1)) with (n := n'); auto; [lia|]. intros n2 i2 H2 Hi2 Hn2. specialize (F (n2, i2) H2). cbn [fst snd] in F. assert (n < n2) by (apply F; lia). lia.
Qed.
Lemma fill_gaps_In a nk k b cands i : forall lo mn,
  In i (fill_gap (last (map snd a) lo) k (nk - 1) (last (map (fun p => fst p - 1 + 1) a) mn) cands) -> In i (fill_gaps lo mn (a ++ (nk, k) :: b) cands).
Proof.
  induction a as [|[ne e] a IH]; intros lo mn H; cbn [app fill_gaps]; apply in_or_app; [now left|]. right. apply IH.
  cbn [map] in H. destruct a as [|p a]; [exact H|]. cbn [map] in *.
  assert (L : forall {T} (x y : T) l d d', last (x :: y :: l) d = last (y :: l) d') by (intros T x y l; revert x y; induction l as [|z l IHl]; intros; [reflexivity|]; exact (IHl y z d d')).
  erewrite (L _ _ _ _ lo e), (L _ _ _ _ mn (ne - 1 + 1)) in H. exact H.
Qed.
Theorem C22_increasing_gap ls k : 
  (forall i j n m, (i < j)%nat -> gap_candidate ls k i n -> gap_candidate ls k j m -> n < m) ->
  forall i n, gap_candidate ls k i n -> exists s', nth_error (find_missing_pages sp dg parse_int ls) i = Some s' /\ sl_tag s' = Some (u "page").
Proof.
  intros Hinc i n Hc. pose proof Hc as (s & H1 & H2 & H3 & H4 & nk & H5 & H6 & H7 & H8). unfold find_missing_pages.
  destruct (set_segs_at (u "page") (missing_pages dg parse_int ls) ls i s H1) as (s' & E1 & E2 & E3). exists s'. split; [exact E1|].
  assert (I : In i (missing_pages dg parse_int ls)); [|destruct (E3 I) as (s0 & -> & _); reflexivity].
  unfold missing_pages. set (ex := numbers parse_int (fun s => ostreq (sl_tag s) (Some (u "page"))) ls). set (cands := numbers _ _ ls).
  assert (Ik : In (nk, k) ex) by now apply numbers_page. apply in_split in Ik as (a & b & Ea). rewrite Ea.
  assert (S : StronglySorted (fun p q => (snd p < snd q)%nat) ex) by apply numbers_sorted. rewrite Ea in S.
  assert (Pa : forall n' j, In (n', j) a -> is_page ls j n' /\ (j < k)%nat).
  { intros n' j Hj. split; [apply numbers_page; fold ex; rewrite Ea; apply in_or_app; now left|]. apply (ss_app _ _ _ S (n', j) (nk, k) Hj). now left. }
  (* the lower bounds *)
  set (lo := last (map snd a) 0%nat). set (mn := last (map (fun p => fst p - 1 + 1) a) 1).
  assert (B : (a = [] /\ lo = 0%nat /\ mn = 1 /\ no_page_before ls k)
    \/ (exists a' nm m, a = a' ++ [(nm, m)] /\ lo = m /\ mn = nm /\ is_page ls m nm /\ no_page_between ls m k)).
  { assert (HP : forall j nj, (j < k)%nat -> is_page ls j nj -> In (nj, j) a).
    { intros j nj Hj Pj. apply numbers_page in Pj. fold ex in Pj. rewrite Ea in Pj. apply in_app_or in Pj as [Pj|[[= _ ->]|Pj]]; [exact Pj | lia |].
      change (a ++ (nk, k) :: b) with (a ++ [(nk, k)] ++ b) in S. rewrite app_assoc in S.
      assert (k < j)%nat by (apply (ss_app _ _ _ S (nk, k) (nj, j)); [apply in_or_app; right; now left | exact Pj]). lia. }
    destruct a as [|p a0] using rev_ind; [left; repeat split; intros j nj Hj Pj; now apply (HP j nj Hj Pj)|]. clear IHa0. right. destruct p as [nm m]. exists a0, nm, m. split; [reflexivity|].
    unfold lo, mn. rewrite !map_app. cbn [map snd fst]. rewrite !last_last. split; [reflexivity|]. split; [lia|].
    split; [apply Pa, in_or_app; right; now left|]. intros j nj [Hj1 Hj2] Pj. specialize (HP j nj Hj2 Pj). apply in_app_or in HP as [HP|[[= _ ->]|[]]]; [|lia].
    rewrite <- app_assoc in S. assert (j < m)%nat by (apply (ss_app _ _ _ S (nj, j) (nm, m)); [exact HP | now left]). lia. }
  assert (GC : forall n' j, In (n', j) cands -> (lo <= j <= k)%nat -> mn <= n' <= nk - 1 -> gap_candidate ls k j n').
  { intros n' j Hj Hr Hn. apply numbers_In in Hj as (sj & J1 & J2 & J3). apply andb_true_iff in J2 as [J2 J4]. unfold seg_untagged in J2. apply negb_true_iff in J2.
    assert (NP : forall x, ~ is_page ls j x) by (intros x (s2 & Q1 & Q2 & _); assert (s2 = sj) as -> by congruence; rewrite Q2 in J2; discriminate).
    exists sj. repeat split; auto. exists nk. split; [destruct (Nat.eq_dec j k) as [->|]; [exfalso; now apply (NP nk) | lia]|]. split; [exact H6|]. split; [lia|].
    destruct B as [(-> & _ & -> & B)|(a' & nm & m & -> & -> & -> & B1 & B2)]; [left; split; [exact B | lia]|]. right. exists m, nm.
    split; [destruct (Nat.eq_dec m j) as [->|]; [exfalso; now apply (NP nm) | lia]|]. repeat split; auto. lia. }
  apply fill_gaps_In. fold lo mn.
  assert (Ri : (lo <= i <= k)%nat /\ mn <= n <= nk - 1).
  { destruct B as [(Ha & -> & -> & B)|(a' & nm & m & Ha & -> & -> & B1 & B2)].
    - destruct H8 as [[_ H8]|(m' & nm' & M1 & M2 & _)]; [lia|]. exfalso. apply (B m' nm'); [lia | exact M2].
    - assert (m < k)%nat by (apply (Pa nm m); rewrite Ha; apply in_or_app; right; now left).
      destruct H8 as [[H8 _]|(m' & nm' & M1 & M2 & M3 & M4)]; [exfalso; now apply (H8 m nm)|].
      assert (m' = m) as -> by (destruct (Nat.lt_total m m') as [Q|[Q|Q]]; [exfalso; apply (B2 m' nm'); [lia | exact M2] | auto | exfalso; apply (M3 m nm); [lia | exact B1]]).
      destruct B1 as (x & X1 & _ & X2), M2 as (y & Y1 & _ & Y2). assert (x = y) as -> by congruence. lia. }
  destruct Ri as [Ri1 Ri2]. apply (fill_gap_all lo k (nk - 1) mn cands mn) with (n := n); auto; try lia.
  - assert (Sc : StronglySorted (fun p q => (snd p < snd q)%nat) cands) by apply numbers_sorted.
    assert (G2 : forall p q, In p cands -> In q cands -> (snd p < snd q)%nat -> (lo <= snd p <= k)%nat -> mn <= fst p <= nk - 1 -> (lo <= snd q <= k)%nat -> mn <= fst q <= nk - 1 -> fst p < fst q).
    { intros [n1 i1] [n2 i2] Hp Hq Hl A1 A2 A3 A4. cbn [fst snd] in *. apply (Hinc i1 i2 n1 n2 Hl); apply GC; auto. }
    clear - Sc G2. induction Sc as [|p l Sc IH F]; constructor.
    + apply IH. intros; apply G2; auto; now right.
    + rewrite Forall_forall in *. intros q Hq A1 A2 A3 A4. apply G2; auto; [now left | now right].
  - apply numbers_In. exists s. split; [exact H1|]. split; [|exact H4]. unfold seg_untagged. now rewrite H2, H3.
Qed.

(** Pages that were tagged as such in the input: exactly the lines without a tag with such a word
    become pages. *)
Definition carries_page (s : segline) : Prop :=
  exists t, In t (sl_line s) /\ is_space sp t = false /\
    (given LMain t = Some (u "page") \/ (truthy (given LMain t) = false /\ remembered LMain t = Some (u "page"))).
Lemma shows_page_spec s : shows_page sp s = true <-> carries_page s.
Proof.
  unfold shows_page, carries_page, words_of. rewrite existsb_exists. split; intros (t & H); exists t.
  - destruct H as [H1 H2]. apply filter_In in H1 as [H1 H3]. apply negb_true_iff in H3. split; [exact H1|]. split; [exact H3|]. apply ostreq_true in H2.
    unfold tag_or_preserved, oor in H2. change (get_tag LMain t) with (given LMain t) in H2. change (get_preserved_tag LMain t) with (remembered LMain t) in H2.
    destruct (truthy (given LMain t)) eqn:E; [now left|]. destruct (given LMain t) as [v|]; auto.
  - destruct H as (H1 & H2 & H3). split; [apply filter_In; split; [exact H1|now rewrite H2]|]. apply ostreq_true. unfold tag_or_preserved, oor.
    change (get_tag LMain t) with (given LMain t). change (get_preserved_tag LMain t) with (remembered LMain t).
    destruct H3 as [->|[E H3]]; [reflexivity|]. rewrite E. exact H3.
Qed.
Theorem C22_preserved ls i s : nth_error ls i = Some s ->
  exists s', nth_error (apply_preserved_pages sp ls) i = Some s'
  /\ (truthy (sl_tag s) = false -> carries_page s -> sl_tag s' = Some (u "page") /\ sl_text s' = sl_text s
      /\ Forall (fun t => given LMain t = Some (u "page")) (sl_line s') /\ Forall2 same_text (sl_line s) (sl_line s'))
  /\ (truthy (sl_tag s) = true \/ ~ carries_page s -> s' = s).
Proof.
  intros H. unfold apply_preserved_pages. rewrite nth_error_map, H. cbn [option_map]. eexists. split; [reflexivity|]. unfold seg_untagged. split.
  - intros H1 H2. apply shows_page_spec in H2. rewrite H1, H2. cbn [negb andb]. split; [reflexivity|]. split; [reflexivity|]. destruct (set_line_spec (Some (u "page")) (sl_line s)) as [E1 E2]. auto.
  - rewrite <- shows_page_spec. intros [->|H1]; [reflexivity|]. destruct (shows_page sp s); [now destruct H1|]. now rewrite andb_false_r.
Qed.

(** C23 *)
(** number of untagged lines with the text *)
Definition untagged_count (ls : list segline) (text : str) : Z :=
  Z.of_nat (length (filter (fun s => negb (truthy (sl_tag s)) && streq text (sl_text s)) ls)).
(** two words, not only digits, white space and dots, first before [mx], repeated *)
Definition possible_header (mx : Z) (ls : list segline) (text : str) : Prop :=
  existsb sp text = true /\ existsb (fun c => negb (dg c || sp c || (c =? 46)%N)) text = true
  /\ (exists i s, nth_error ls i = Some s /\ sl_text s = text /\ Z.of_nat i < mx) /\ 2 <= untagged_count ls text.
(** ... and about as frequent as the most frequent of them *)
Definition header (mx : Z) (ls : list segline) (text : str) : Prop :=
  possible_header mx ls text /\ forall other, possible_header mx ls other -> untagged_count ls other <= untagged_count ls text + 1.

Lemma count_eq ls text : occurrences streq text (map sl_text (filter seg_untagged ls)) = untagged_count ls text.
Proof.
  unfold occurrences, count_of, untagged_count. induction ls as [|s ls IH]; [reflexivity|]. cbn [filter]. unfold seg_untagged at 1.
  destruct (truthy (sl_tag s)); cbn [negb andb]; [exact IH|]. cbn [map filter]. destruct (streq text (sl_text s)); cbn [length]; lia.
Qed.
Lemma first_index_spec ls text mx : forall i, (0 <= i) -> In text (map sl_text ls) ->
  (first_index text i ls < mx <-> exists k s, nth_error ls k = Some s /\ sl_text s = text /\ i + Z.of_nat k < mx).
Proof.
  induction ls as [|s ls IH]; intros i Hi H; [easy|]. cbn [first_index]. destruct (streq (sl_text s) text) eqn:E.
  - apply streq_true in E. split; [intros L; exists 0%nat, s; cbn; repeat split; auto; lia|]. intros (k & s' & _ & _ & L). lia.
  - assert (In text (map sl_text ls)) as H' by (destruct H as [H|H]; [apply streq_true in H; congruence | exact H]). rewrite (IH (i + 1)) by (lia || exact H'). split.
    + intros (k & s' & K1 & K2 & K3). exists (S k), s'. repeat split; auto. lia.
    + intros ([|k] & s' & K1 & K2 & K3); cbn in K1; [injection K1 as ->; apply streq_true in K2; congruence|]. exists k, s'. repeat split; auto. lia.
Qed.
Definition shape (text : str) : bool := existsb sp text && existsb (fun c => negb (dg c || sp c || (c =? 46)%N)) text.
Lemma valid_header_eq text n m : valid_header sp dg text n m = (m <=? n) && shape text.
Proof.
  unfold valid_header, shape. rewrite Z.ltb_antisym. destruct (m <=? n); cbn [negb andb]; [|reflexivity].
  assert (E1 : forall f, existsb (fun c : N => negb (f c)) text = negb (forallb f text)).
  { intros f. induction text as [|c t IH]; [reflexivity|]. cbn. rewrite IH. now destruct (f c). }
  rewrite (E1 (fun c => dg c || sp c || (c =? 46)%N)).
  assert (E2 : negb (Z.of_nat (length (filter sp text)) + 1 <? 2) = existsb sp text).
  { clear. induction text as [|c t IH]; [reflexivity|]. cbn [filter existsb]. destruct (sp c); cbn [orb]; [|exact IH]. cbn [length]. apply negb_true_iff, Z.ltb_ge. lia. }
  rewrite E2. destruct text as [|c t]; [reflexivity|]. destruct (forallb _ (c :: t)); cbn; [now rewrite andb_false_r | now rewrite andb_true_r].
Qed.
Lemma first_index_texts text ls ls' : map sl_text ls = map sl_text ls' -> forall i, first_index text i ls = first_index text i ls'.
Proof.
  revert ls'. induction ls as [|s ls IH]; intros [|s' ls'] H i; try discriminate; [reflexivity|]. injection H as H1 H2. cbn [first_index]. rewrite H1. destruct (streq _ _); [reflexivity | now apply IH].
Qed.
(** the selected texts *)
Fixpoint selected (early : str -> bool) (m : option Z) (tcs : list (str * Z)) : list str :=
  match tcs with
  | [] => []
  | (t, n) :: tcs' =>
      if (match m with None => 2 | Some x => x end <=? n) && shape t && early t
      then t :: selected early (match m with None => Some (Z.max 2 (n - 1)) | Some _ => m end) tcs'
      else selected early m tcs'
  end.
Definition mark (ts : list str) (s : segline) : segline := if mem (sl_text s) ts then set_seg sp (u "headnote") s else s.
Lemma headers_selected mx tcs : NoDup (map fst tcs) -> forall m ls0 ls, map sl_text ls = map sl_text ls0 ->
  snd (fold_left (header_step sp dg mx) tcs (m, ls)) = map (mark (selected (fun t => first_index t 0 ls0 <? mx) m tcs)) ls.
Proof.
  induction tcs as [|[t n] tcs IH]; intros D m ls0 ls E; cbn [fold_left selected].
  - cbn [snd]. symmetry. etransitivity; [|apply map_id]. apply map_ext. intros s. reflexivity.
  - cbn [map fst] in D. inversion D as [|? ? Hn D']; subst. cbn [header_step]. rewrite valid_header_eq, (first_index_texts t ls ls0 E), (Z.leb_antisym _ mx).
    destruct ((match m with None => 2 | Some x => x end <=? n) && shape t); cbn [negb andb]; [|now apply IH].
    destruct (first_index t 0 ls0 <? mx) eqn:F; cbn [negb]; [|now apply IH].
    rewrite (IH D' _ ls0). 2: { unfold set_text. rewrite map_map, <- E. apply map_ext. intros s. destruct (streq _ _); reflexivity. }
    unfold set_text. rewrite map_map. apply map_ext. intros s. unfold mark. set (rest := selected _ _ tcs).
    assert (Hr : forall x, In x rest -> In x (map fst tcs)).
    { unfold rest. clear. generalize (match m with None => Some (Z.max 2 (n - 1)) | Some _ => m end). intros m'. revert m'. induction tcs as [|[a b] l IH]; intros m' x H; [easy|]. cbn [selected] in H.
      destruct (_ && _); [destruct H as [<-|H]; [now left | right; exact (IH _ x H)] | right; exact (IH m' x H)]. }
    assert (M : mem (sl_text s) (t :: rest) = streq (sl_text s) t || mem (sl_text s) rest).
    { apply Bool.eq_iff_eq_true. rewrite orb_true_iff, !mem_In, streq_true. cbn. split; intros [H|H]; auto. }
    rewrite M. destruct (streq (sl_text s) t) eqn:Q; cbn [orb]; [|reflexivity]. cbn [set_seg sl_text]. apply streq_true in Q. rewrite Q.
    destruct (mem t rest) eqn:R; [|reflexivity]. exfalso. apply Hn, Hr. now apply mem_In.
Qed.
Lemma selected_some early x tcs t : In t (selected early (Some x) tcs) <-> exists n, In (t, n) tcs /\ x <= n /\ shape t = true /\ early t = true.
Proof.
  induction tcs as [|[a b] tcs IH]; cbn [selected]; [split; [easy | now intros (n & [] & _)]|].
  destruct ((x <=? b) && shape a && early a) eqn:E.
  - rewrite !andb_true_iff in E. destruct E as [[E1 E2] E3]. apply Z.leb_le in E1. cbn [In]. rewrite IH. split.
    + intros [<-|(n & H1 & H2)]; [exists b; split; [now left | auto] | exists n; split; [now right | exact H2]].
    + intros (n & [[= -> ->]|H1] & H2); [now left | right; now exists n].
  - rewrite IH. split; [intros (n & H1 & H2); exists n; split; [now right | exact H2]|]. intros (n & [[= -> ->]|H1] & H2 & H3 & H4); [|now exists n].
    rewrite H3, H4 in E. assert ((x <=? n) = true) as X by lia. rewrite X in E. discriminate.
Qed.
Lemma selected_none early tcs t : StronglySorted (fun a b => snd b <= snd a) tcs -> NoDup (map fst tcs) ->
  (In t (selected early None tcs) <-> exists n, In (t, n) tcs /\ 2 <= n /\ shape t = true /\ early t = true
     /\ forall t' n', In (t', n') tcs -> 2 <= n' -> shape t' = true -> early t' = true -> n' <= n + 1).
Proof.
  induction tcs as [|[a b] tcs IH]; intros S D; cbn [selected]; [split; [easy | now intros (n & [] & _)]|]. inversion S as [|? ? S' F]; subst. cbn [map fst] in D. inversion D as [|? ? Dn D']; subst. rewrite Forall_forall in F.
  destruct ((2 <=? b) && shape a && early a) eqn:E.
  - rewrite !andb_true_iff in E. destruct E as [[E1 E2] E3]. apply Z.leb_le in E1. cbn [In]. rewrite selected_some. split.
    + intros [<-|(n & H1 & H2 & H3 & H4)].
      * exists b. split; [now left|]. repeat split; auto. intros t' n' [[= _ <-]|Q] _ _ _; [lia|]. specialize (F _ Q). cbn in F. lia.
      * exists n. split; [now right|]. repeat split; auto; [lia|]. intros t' n' [[= _ <-]|Q] _ _ _; [lia|]. specialize (F _ Q). cbn in F. lia.
    + intros (n & [[= -> ->]|H1] & H2 & H3 & H4 & H5); [now left|]. right. exists n. repeat split; auto. specialize (H5 a b (or_introl eq_refl) E1 E2 E3). lia.
  - rewrite (IH S' D'). assert (X : forall n, (a, b) = (t, n) -> 2 <= n -> shape t = true -> early t = true -> False).
    { intros n [= -> ->] H2 H3 H4. rewrite H3, H4 in E. assert ((2 <=? n) = true) as X by lia. rewrite X in E. discriminate. }
    split.
    + intros (n & H1 & H2 & H3 & H4 & H5). exists n. split; [now right|]. repeat split; auto. intros t' n' [[= <- <-]|Q] Q1 Q2 Q3; [|now apply (H5 t' n')].
      rewrite Q2, Q3 in E. assert ((2 <=? b) = true) as X' by lia. rewrite X' in E. discriminate.
    + intros (n & [Q|H1] & H2 & H3 & H4 & H5); [exfalso; now apply (X n Q)|]. exists n. repeat split; auto. intros t' n' Q. apply (H5 t' n'). now right.
Qed.

(** Exactly the lines with the text of a page header get the tag; nothing else changes. *)
Theorem C23_exact mx ls i s : nth_error ls i = Some s -> exists s', nth_error (find_page_headers sp dg mx ls) i = Some s'
  /\ (header mx ls (sl_text s) -> sl_tag s' = Some (u "headnote") /\ Forall (fun t => given LMain t = Some (u "headnote")) (sl_line s'))
  /\ (~ header mx ls (sl_text s) -> s' = s).
Proof.
  intros H. unfold find_page_headers. set (texts := map sl_text (filter seg_untagged ls)).
  rewrite (headers_selected mx _ (most_common_keys streq streq_true texts) None ls ls eq_refl). rewrite nth_error_map, H. cbn [option_map].
  eexists. split; [reflexivity|].
  assert (Tx : forall t, In t texts -> In t (map sl_text ls)).
  { intros t Ht. apply in_map_iff in Ht as (x & <- & Hx). apply filter_In in Hx as [Hx _]. now apply in_map. }
  assert (Cn : forall t, 2 <= untagged_count ls t -> In t texts).
  { intros t Ht. rewrite <- count_eq in Ht. fold texts in Ht. unfold occurrences, count_of in Ht. destruct (filter (streq t) texts) as [|x l] eqn:E; [cbn in Ht; lia|].
    assert (I : In x (filter (streq t) texts)) by (rewrite E; now left). apply filter_In in I as [I1 I2]. apply streq_true in I2. now subst. }
  assert (P : forall t, possible_header mx ls t <-> exists n, In (t, n) (most_common streq texts) /\ 2 <= n /\ shape t = true /\ (first_index t 0 ls <? mx) = true).
  { intros t. split.
    - intros (P1 & P2 & P3 & P4). exists (untagged_count ls t). split; [apply (most_common_In streq streq_true); split; [now apply Cn | unfold texts; now rewrite count_eq]|].
      split; [exact P4|]. split; [unfold shape; now rewrite P1, P2|]. apply Z.ltb_lt. apply first_index_spec; [lia | now apply Tx, Cn|]. destruct P3 as (k & x & K1 & K2 & K3). exists k, x. repeat split; auto; lia.
    - intros (n & P1 & P2 & P3 & P4). apply (most_common_In streq streq_true) in P1 as [P1 ->]. unfold texts in P2. rewrite count_eq in P2. unfold shape in P3. apply andb_true_iff in P3 as [P3 P5].
      repeat split; auto. apply Z.ltb_lt in P4. apply first_index_spec in P4; [|lia | now apply Tx]. destruct P4 as (k & x & K1 & K2 & K3). exists k, x. repeat split; auto; lia. }
  assert (Q : header mx ls (sl_text s) <-> In (sl_text s) (selected (fun t => first_index t 0 ls <? mx) None (most_common streq texts))).
  { rewrite (selected_none _ _ _ (most_common_sorted streq texts) (most_common_keys streq streq_true texts)). split.
    - intros [H1 H2]. apply P in H1 as (n & H1 & H3 & H4 & H5). exists n. repeat split; auto. intros t' n' T1 T2 T3 T4.
      apply (most_common_In streq streq_true) in H1 as [H1 E1]. pose proof T1 as T1'. apply (most_common_In streq streq_true) in T1' as [_ E2]. subst n n'. unfold texts. rewrite !count_eq.
      apply H2. apply P. eexists. split; [exact T1 | auto].
    - intros (n & H1 & H2 & H3 & H4 & H5). split; [apply P; exists n; auto|]. intros other Ho. apply P in Ho as (n' & O1 & O2 & O3 & O4). specialize (H5 _ _ O1 O2 O3 O4).
      apply (most_common_In streq streq_true) in H1 as [_ ->], O1 as [_ ->]. unfold texts in H5. rewrite !count_eq in H5. exact H5. }
  split; intros Hh; unfold mark.
  - apply Q in Hh. apply mem_In in Hh. rewrite Hh. split; [reflexivity|]. apply set_line_spec.
  - destruct (mem (sl_text s) _) eqn:M; [|reflexivity]. exfalso. apply Hh, Q. now apply mem_In.
Qed.

(** C63: merging *)
Definition block_tag (s : segline) : bool := truthy (sl_tag s) && negb (oin (sl_tag s) [u "headnote"; u "page"]).
(** segmentation tag of the block before (the document starts with front) *)
Definition tag_before (a : list segline) : ostr := match find block_tag (rev a) with Some x => sl_tag x | None => Some (u "front") end.
(** the tag a line gets between [a] and [b] *)
Definition merged (preserve : bool) (enabled remaining : list str) (a : list segline) (s : segline) (b : list segline) : option str :=
  if truthy (sl_tag s) || (preserve && shows_page sp s) then None
  else match tag_before a with
       | Some v =>
           if mem v enabled && match find block_tag b with Some x => ostreq (sl_tag x) (Some v) | None => mem v remaining end
           then Some v else None
       | None => None
       end.
Definition expected (preserve : bool) (enabled remaining : list str) (a : list segline) (s : segline) (b : list segline) : segline :=
  match merged preserve enabled remaining a s b with Some v => set_seg sp v s | None => s end.

Section Merge.
Variable preserve : bool.
Variable enabled remaining : list str.
Hypothesis no_empty : ~ In [] enabled.
Variable ls : list segline.
Definition want (i : nat) (x : segline) : Prop := exists a s b, ls = a ++ s :: b /\ length a = i /\ x = expected preserve enabled remaining a s b.
Definition state_ok (a b : list segline) (cands : list nat) (prev : ostr) (cur : list segline) : Prop :=
  ls = a ++ b /\ length cur = length ls /\ NoDup cands /\ prev = tag_before a
  /\ (forall i, (i < length a)%nat -> ~ In i cands -> exists x, nth_error cur i = Some x /\ want i x)
  /\ (forall i, (length a <= i)%nat -> nth_error cur i = nth_error ls i)
  /\ (forall i, In i cands -> nth_error cur i = nth_error ls i /\ exists a1 s m, a = a1 ++ s :: m /\ length a1 = i
        /\ truthy (sl_tag s) || (preserve && shows_page sp s) = false /\ find block_tag m = None /\ oin (tag_before a1) enabled = true).

Lemma find_app' {A} (f : A -> bool) l1 l2 : find f (l1 ++ l2) = match find f l1 with Some x => Some x | None => find f l2 end.
Proof. induction l1 as [|a l1 IH]; [reflexivity|]. cbn. destruct (f a); auto. Qed.
Lemma find_rev_none {A} (f : A -> bool) l : find f l = None -> find f (rev l) = None.
Proof.
  intros H. destruct (find f (rev l)) as [x|] eqn:E; [|reflexivity]. apply find_some in E as [E1 E2]. apply in_rev in E1.
  pose proof (find_none f l H x E1). congruence.
Qed.
Lemma tag_before_snoc a s : tag_before (a ++ [s]) = if block_tag s then sl_tag s else tag_before a.
Proof. unfold tag_before. rewrite rev_app_distr. cbn [rev app find]. destruct (block_tag s); reflexivity. Qed.
Lemma tag_before_gap a m : find block_tag m = None -> tag_before (a ++ m) = tag_before a.
Proof. intros H. unfold tag_before. rewrite rev_app_distr, find_app', (find_rev_none _ _ H). reflexivity. Qed.
Lemma split_at (a1 : list segline) s m a b : a = a1 ++ s :: m -> a ++ b = a1 ++ s :: (m ++ b).
Proof. intros ->. now rewrite <- app_assoc. Qed.

(** all candidates get [v], or none does *)
Lemma resolve a b cands prev cur (v : option str) :
  state_ok a b cands prev cur ->
  (forall i a1 s m, In i cands -> a = a1 ++ s :: m -> length a1 = i -> find block_tag m = None -> tag_before a1 = prev -> oin prev enabled = true ->
     truthy (sl_tag s) || (preserve && shows_page sp s) = false -> merged preserve enabled remaining a1 s (m ++ b) = v) ->
  forall cur', cur' = match v with Some x => set_segs sp x cands cur | None => cur end ->
  length cur' = length ls /\ (forall i, (i < length a)%nat -> exists x, nth_error cur' i = Some x /\ want i x)
  /\ (forall i, (length a <= i)%nat -> nth_error cur' i = nth_error ls i).
Proof.
  intros (E & L & D & P & H1 & H2 & H3) Hv cur' ->.
  assert (Cl : forall i, In i cands -> (i < length a)%nat).
  { intros i Hi. destruct (H3 i Hi) as (_ & a1 & s & m & -> & <- & _). rewrite app_length. cbn. lia. }
  assert (Lc : length (match v with Some x => set_segs sp x cands cur | None => cur end) = length ls).
  { rewrite <- L. destruct v as [x|]; [|reflexivity]. clear. revert cur. induction cands as [|i c IH]; intros cur; [reflexivity|]. cbn [set_segs fold_left]. unfold set_segs in IH. rewrite IH. apply update_nth_length. }
  split; [exact Lc|].
  assert (Ch : forall i, In i cands -> exists x, nth_error (match v with Some x => set_segs sp x cands cur | None => cur end) i = Some x /\ want i x).
  { intros i Hi. destruct (H3 i Hi) as (E1 & a1 & s & m & Ea & El & Eu & Em & Ee).
    assert (Ep : tag_before a1 = prev).
    { rewrite P, Ea. change (a1 ++ s :: m) with (a1 ++ [s] ++ m). rewrite app_assoc, tag_before_gap, tag_before_snoc by exact Em.
      unfold block_tag. apply orb_false_iff in Eu as [-> _]. reflexivity. }
    assert (Hm : merged preserve enabled remaining a1 s (m ++ b) = v) by (apply (Hv i a1 s m); auto; now rewrite <- Ep).
    assert (En : nth_error ls i = Some s) by (rewrite E, (split_at a1 s m a b Ea), nth_error_app2 by lia; now rewrite El, Nat.sub_diag).
    rewrite En in E1.
    assert (Wi : forall x, x = match v with Some y => set_seg sp y s | None => s end -> want i x).
    { intros x ->. exists a1, s, (m ++ b). split; [rewrite E; now apply split_at|]. split; [exact El|]. unfold expected. now rewrite Hm. }
    destruct v as [y|]; [|exists s; split; [exact E1 | now apply Wi]].
    exists (set_seg sp y s). split; [|now apply Wi].
    clear - D Hi E1. revert cur E1. induction cands as [|j c IH]; intros cur E1; [easy|]. cbn [set_segs fold_left]. inversion D as [|? ? D1 D2]; subst. destruct Hi as [->|Hi].
    - assert (Q : forall c cur x, ~ In i c -> nth_error cur i = Some x -> nth_error (set_segs sp y c cur) i = Some x).
      { clear. induction c as [|j c IH]; intros cur x Hn Hx; [exact Hx|]. cbn [set_segs fold_left]. apply IH; [intros Q; apply Hn; now right|]. rewrite update_nth_other; [exact Hx|]. intros ->. apply Hn. now left. }
      apply Q; [exact D1|]. now rewrite update_nth_same, E1.
    - apply IH; auto. rewrite update_nth_other; [exact E1|]. intros ->. easy. }
  assert (Nc : forall i, ~ In i cands -> nth_error (match v with Some x => set_segs sp x cands cur | None => cur end) i = nth_error cur i).
  { intros i Hi. destruct v as [y|]; [|reflexivity]. clear - Hi. revert cur. induction cands as [|j c IH]; intros cur; [reflexivity|]. cbn [set_segs fold_left]. unfold set_segs in IH. rewrite IH by (intros Q; apply Hi; now right).
    apply update_nth_other. intros ->. apply Hi. now left. }
  split.
  - intros i Hi. destruct (in_dec Nat.eq_dec i cands) as [I|I]; [now apply Ch|]. rewrite Nc by exact I. now apply H1.
  - intros i Hi. rewrite Nc; [now apply H2|]. intros I. apply Cl in I. lia.
Qed.

Lemma merge_fold b : forall a cands prev cur, state_ok a b cands prev cur ->
  let '(cands', prev', cur') := fold_left (merge_step sp preserve enabled) (indexed (length a) b) (cands, prev, cur) in
  state_ok (a ++ b) [] cands' prev' cur'.
Proof.
  induction b as [|s b IH]; intros a cands prev cur H; cbn [indexed fold_left]; [now rewrite app_nil_r|].
  assert (Step : forall cands' prev' cur', state_ok (a ++ [s]) b cands' prev' cur' ->
    let '(cands', prev', cur') := fold_left (merge_step sp preserve enabled) (indexed (S (length a)) b) (cands', prev', cur') in state_ok (a ++ s :: b) [] cands' prev' cur').
  { intros c' p' u' H'. specialize (IH (a ++ [s]) c' p' u' H'). rewrite app_length in IH. cbn [length] in IH. rewrite Nat.add_1_r in IH. rewrite <- app_assoc in IH. exact IH. }
  assert (Ens : nth_error ls (length a) = Some s) by (destruct H as (-> & _); rewrite nth_error_app2, Nat.sub_diag by lia; reflexivity).
  assert (El : ls = (a ++ [s]) ++ b) by (destruct H as (-> & _); now rewrite <- app_assoc).
  (* the line itself stays *)
  assert (Stay : merged preserve enabled remaining a s b = None -> want (length a) s).
  { intros M. exists a, s, b. split; [rewrite El, <- app_assoc; reflexivity|]. split; [reflexivity|]. unfold expected. now rewrite M. }
  (* the state after a line that is no block and no candidate *)
  assert (Skip : block_tag s = false -> merged preserve enabled remaining a s b = None -> state_ok (a ++ [s]) b cands prev cur).
  { intros Hb M. pose proof H as (E & L & D & P & H1 & H2 & H3). split; [exact El|]. split; [exact L|]. split; [exact D|]. split; [now rewrite tag_before_snoc, Hb|]. rewrite app_length. cbn [length]. split; [|split].
    - intros i Hi Hn. destruct (Nat.eq_dec i (length a)) as [->|]; [|apply H1; [lia | exact Hn]]. exists s. split; [now rewrite H2 by lia | now apply Stay].
    - intros i Hi. apply H2. lia.
    - intros i Hi. destruct (H3 i Hi) as (Q1 & a1 & x & m & -> & Q2 & Q3 & Q4 & Q5). split; [exact Q1|]. exists a1, x, (m ++ [s]). rewrite <- app_assoc. cbn [app]. repeat split; auto.
      rewrite find_app', Q4. cbn [find]. now rewrite Hb. }
  (* ... that starts or continues a block *)
  assert (Block : forall v, block_tag s = true -> sl_tag s = Some v -> v <> [] ->
    forall cur', cur' = (if mem v enabled && ostreq prev (Some v) then set_segs sp v cands cur else cur) -> state_ok (a ++ [s]) b [] (Some v) cur').
  { intros v Hb Hv Hne cur' Ec.
    destruct (resolve a (s :: b) cands prev cur (if mem v enabled && ostreq prev (Some v) then Some v else None) H) with (cur' := cur') as (R1 & R2 & R3).
    - intros i a1 x m Hi Ea El' Em Ep Een Eu. unfold merged. rewrite Eu, Ep, find_app', Em. cbn [find]. rewrite Hb, Hv. destruct prev as [w|]; [|now rewrite andb_false_r].
      cbn [oin] in Een. rewrite Een. cbn [andb]. destruct (ostreq (Some v) (Some w)) eqn:Q.
      + apply ostreq_true in Q. injection Q as <-. rewrite Een. assert (ostreq (Some v) (Some v) = true) as -> by now apply ostreq_true. reflexivity.
      + assert (ostreq (Some w) (Some v) = false) as -> by (apply ostreq_false; apply ostreq_false in Q; congruence). now rewrite andb_false_r.
    - rewrite Ec. destruct (mem v enabled && ostreq prev (Some v)); reflexivity.
    - split; [exact El|]. split; [exact R1|]. split; [constructor|]. split; [now rewrite tag_before_snoc, Hb|]. rewrite app_length. cbn [length]. split; [|split].
      + intros i Hi _. destruct (Nat.eq_dec i (length a)) as [->|]; [|apply R2; lia]. exists s. split; [now rewrite R3 by lia|]. apply Stay.
        unfold merged. rewrite Hv. destruct v; [easy | reflexivity].
      + intros i Hi. apply R3. lia.
      + intros i []. }
  (* ... that is a candidate *)
  assert (Cand : truthy (sl_tag s) || (preserve && shows_page sp s) = false -> state_ok (a ++ [s]) b (if oin prev enabled then cands ++ [length a] else cands) prev cur).
  { intros Hu. assert (Hb : block_tag s = false) by (unfold block_tag; apply orb_false_iff in Hu as [-> _]; reflexivity).
    destruct (oin prev enabled) eqn:Eo.
    - pose proof H as (E & L & D & P & H1 & H2 & H3). split; [exact El|]. split; [exact L|]. split.
      { apply NoDup_rev in D. rewrite <- (rev_involutive (cands ++ _)). apply NoDup_rev. rewrite rev_app_distr. constructor; [|exact D].
        intros Q. apply in_rev in Q. destruct (H3 _ Q) as (_ & a1 & x & m & Ea & Eb & _). rewrite Ea, app_length in Eb. cbn in Eb. lia. }
      split; [now rewrite tag_before_snoc, Hb|]. rewrite app_length. cbn [length]. split; [|split].
      + intros i Hi Hn. rewrite in_app_iff in Hn. cbn in Hn. apply H1; [|tauto]. assert (i <> length a) by (intros ->; tauto). lia.
      + intros i Hi. apply H2. lia.
      + intros i Hi. apply in_app_or in Hi as [Hi|[<-|[]]].
        * destruct (H3 i Hi) as (Q1 & a1 & x & m & -> & Q2 & Q3 & Q4 & Q5). split; [exact Q1|]. exists a1, x, (m ++ [s]). rewrite <- app_assoc. cbn [app]. repeat split; auto.
          rewrite find_app', Q4. cbn [find]. now rewrite Hb.
        * split; [apply H2; lia|]. exists a, s, []. repeat split; auto. now rewrite <- P.
    - apply Skip; [exact Hb|]. unfold merged. rewrite Hu. destruct H as (_ & _ & _ & <- & _). destruct prev as [w|]; [|reflexivity]. cbn [oin] in Eo. now rewrite Eo. }
  cbn [merge_step]. destruct (oin (sl_tag s) [u "headnote"; u "page"]) eqn:Eh.
  - apply Step, Skip; [unfold block_tag; rewrite Eh; apply andb_false_r|]. unfold merged. destruct (sl_tag s) as [[|x v]|] eqn:Et; try discriminate. reflexivity.
  - destruct (sl_tag s) as [v|] eqn:Et.
    + destruct (mem v enabled) eqn:Em.
      * assert (Hne : v <> []) by (intros ->; apply no_empty; now apply mem_In). assert (Ht : truthy (Some v) = true) by (destruct v; [easy | reflexivity]). rewrite Ht. cbn [andb].
        apply Step. apply (Block v); [unfold block_tag; now rewrite Et, Ht, Eh | reflexivity | exact Hne|]. rewrite Em. cbn [andb]. destruct (ostreq prev (Some v)); reflexivity.
      * destruct (truthy (Some v)) eqn:Ht.
        -- apply Step. apply (Block v); [unfold block_tag; now rewrite Et, Ht, Eh | reflexivity | intros ->; discriminate | rewrite Em; reflexivity].
        -- cbn [andb]. destruct (preserve && shows_page sp s) eqn:Ep.
           ++ apply Step, Skip; [unfold block_tag; now rewrite Et, Ht|]. unfold merged. now rewrite Ep, orb_true_r.
           ++ apply Step, Cand. destruct v; [reflexivity | discriminate].
    + cbn [truthy andb]. destruct (preserve && shows_page sp s) eqn:Ep.
      * apply Step, Skip; [unfold block_tag; now rewrite Et|]. unfold merged. now rewrite Ep, orb_true_r.
      * apply Step, Cand. reflexivity.
Qed.

(** Exactly the untagged lines between two lines with the same enabled tag are merged
    (pages and headers do not count), and those at the end after a remaining tag. *)
Theorem C63_merge a s b : ls = a ++ s :: b ->
  length (merge_lines sp preserve enabled remaining ls) = length ls
  /\ nth_error (merge_lines sp preserve enabled remaining ls) (length a) = Some (expected preserve enabled remaining a s b).
Proof.
  intros E. unfold merge_lines.
  assert (I : state_ok [] ls [] (Some (u "front")) ls).
  { split; [reflexivity|]. split; [reflexivity|]. split; [constructor|]. split; [reflexivity|]. split; [intros; cbn in *; lia|]. split; [reflexivity|]. intros i []. }
  apply (merge_fold ls [] [] (Some (u "front")) ls) in I. cbn [length] in I. destruct (fold_left _ _ _) as [[cands prev] cur]. cbn [app] in I.
  set (v := match prev with Some x => if mem x remaining then Some x else None | None => None end).
  destruct (resolve ls [] cands prev cur v I) with (cur' := match v with Some x => set_segs sp x cands cur | None => cur end) as (R1 & R2 & _).
  - intros i a1 x m Hi Ea El' Em Ep Een Eu. unfold merged. rewrite Eu, Ep, app_nil_r, Em. unfold v. destruct prev as [w|]; [|reflexivity]. cbn [oin] in Een. now rewrite Een.
  - reflexivity.
  - assert (Q : match cands, prev with _ :: _, Some v0 => if mem v0 remaining then set_segs sp v0 cands cur else cur | _, _ => cur end = match v with Some x => set_segs sp x cands cur | None => cur end).
    { unfold v. destruct cands as [|c cs], prev as [w|]; try reflexivity; destruct (mem w remaining); reflexivity. }
    rewrite Q. split; [exact R1|]. destruct (R2 (length a)) as (x & X1 & a' & s' & b' & Ea & El' & ->); [rewrite E, app_length; cbn; lia|].
    rewrite X1. rewrite E in Ea. assert (a = a' /\ s = s' /\ b = b') as (-> & -> & ->); [|reflexivity].
    clear - Ea El'. revert a' El' Ea. induction a as [|x a IH]; intros [|y a'] El' Ea; try discriminate; cbn in *; injection Ea as -> Ea; [auto|]. injection El' as El'. destruct (IH a' El' Ea) as (-> & -> & ->). auto.
Qed.
End Merge.

(** C64: front blocks that start late *)
(** index of the first line of the block of front lines that ends with the line after [a] *)
Fixpoint leading_front (l : list segline) : nat :=
  match l with s :: l' => if ostreq (sl_tag s) (Some (u "front")) then S (leading_front l') else 0 | [] => 0 end.
Definition block_start (a : list segline) : Z := Z.of_nat (length a) - Z.of_nat (leading_front (rev a)).

Lemma clear_front_at mx ls : forall a0 block start a s b, ls = a ++ s :: b ->
  (block = Some (u "front") -> start = block_start a0 /\ (0 < leading_front (rev a0))%nat) ->
  (block <> Some (u "front") -> leading_front (rev a0) = 0%nat) ->
  length (clear_front sp mx block start (Z.of_nat (length a0)) ls) = length ls /\
  nth_error (clear_front sp mx block start (Z.of_nat (length a0)) ls) (length a)
  = Some (if ostreq (sl_tag s) (Some (u "front")) && (mx <? block_start (a0 ++ a)) then clear_seg sp s else s).
Proof.
  induction ls as [|x ls IH]; intros a0 block start a s b E Hf Hn; [destruct a; discriminate|]. cbn [clear_front].
  set (changed := negb (ostreq (sl_tag x) block)).
  assert (Eb : (if changed then sl_tag x else block) = sl_tag x).
  { unfold changed. destruct (ostreq (sl_tag x) block) eqn:Q; cbn; [symmetry; now apply ostreq_true | reflexivity]. }
  rewrite Eb. set (start' := if changed then Z.of_nat (length a0) else start).
  assert (Hs : sl_tag x = Some (u "front") -> start' = block_start a0).
  { intros Hx. unfold start', changed. destruct (ostreq (sl_tag x) block) eqn:Q; cbn [negb].
    - apply ostreq_true in Q. apply Hf. congruence.
    - apply ostreq_false in Q. unfold block_start. rewrite Hn by congruence. lia. }
  replace (Z.of_nat (length a0) + 1) with (Z.of_nat (length (a0 ++ [x]))) by (rewrite app_length; cbn; lia).
  assert (Hstep : forall a s b, ls = a ++ s :: b -> length (clear_front sp mx (sl_tag x) start' (Z.of_nat (length (a0 ++ [x]))) ls) = length ls /\
     nth_error (clear_front sp mx (sl_tag x) start' (Z.of_nat (length (a0 ++ [x]))) ls) (length a)
     = Some (if ostreq (sl_tag s) (Some (u "front")) && (mx <? block_start ((a0 ++ [x]) ++ a)) then clear_seg sp s else s)).
  { intros a' s' b' E'. apply (IH (a0 ++ [x]) (sl_tag x) start' a' s' b' E').
    - intros Hx. rewrite rev_app_distr. cbn [rev app leading_front]. assert (ostreq (sl_tag x) (Some (u "front")) = true) as Q by now apply ostreq_true.
      unfold block_start. rewrite rev_app_distr, app_length. cbn [rev app leading_front length]. rewrite Q. rewrite (Hs Hx). unfold block_start. split; lia.
    - intros Hx. rewrite rev_app_distr. cbn [rev app leading_front]. assert (ostreq (sl_tag x) (Some (u "front")) = false) as -> by now apply ostreq_false. reflexivity. }
  destruct a as [|y a]; cbn [app] in E; injection E as -> E.
  - cbn [length nth_error]. split.
    + destruct ls as [|z ls']; [reflexivity|]. destruct (Hstep [] z ls' eq_refl) as [-> _]. reflexivity.
    + rewrite app_nil_r. destruct (ostreq (sl_tag s) (Some (u "front"))) eqn:Q; cbn [andb]; [|reflexivity]. apply ostreq_true in Q. now rewrite (Hs Q).
  - destruct (Hstep a s b E) as [H1 H2]. cbn [length nth_error]. split; [now rewrite H1|]. rewrite H2, <- app_assoc. reflexivity.
Qed.
Theorem C64_late_front mx ls a s b : ls = a ++ s :: b ->
  nth_error (clear_front_after_threshold sp mx ls) (length a)
  = Some (if negb (mx =? 0) && ostreq (sl_tag s) (Some (u "front")) && (mx <? block_start a) then clear_seg sp s else s).
Proof.
  intros E. unfold clear_front_after_threshold. destruct (mx =? 0); cbn [negb andb].
  - rewrite E, nth_error_app2, Nat.sub_diag by lia. reflexivity.
  - apply (clear_front_at mx ls [] None 0 a s b E); [discriminate | reflexivity].
Qed.

(** A line with a segmentation tag from its words keeps it, unless it is a late front
    line or a page header. *)
Theorem C21_tagged_stay c d i l : nth_error d i = Some l -> truthy (sl_tag (seg_first sp c l)) = true ->
  (sl_tag (seg_first sp c l) <> Some (u "front") \/ sc_front_max c = 0) ->
  ~ header (sc_header_max c) (find_missing_pages sp dg parse_int (clear_front_after_threshold sp (sc_front_max c) (map (seg_first sp c) d))) (sl_text (seg_first sp c l)) ->
  nth_error (segment_lines sp dg parse_int c false d) i = Some (seg_first sp c l).
Proof.
  intros H Ht Hf Hh. set (s := seg_first sp c l) in *. unfold segment_lines.
  assert (H1 : nth_error (map (seg_first sp c) d) i = Some s) by now rewrite nth_error_map, H.
  set (ls1 := map (seg_first sp c) d) in *.
  assert (H2 : nth_error (clear_front_after_threshold sp (sc_front_max c) ls1) i = Some s).
  { destruct (nth_error_split _ _ H1) as (a & b & E & <-). rewrite (C64_late_front _ ls1 a s b E). destruct Hf as [Hf|Hf].
    - assert (ostreq (sl_tag s) (Some (u "front")) = false) as -> by now apply ostreq_false. now rewrite andb_false_r.
    - rewrite Hf. reflexivity. }
  set (ls2 := clear_front_after_threshold sp (sc_front_max c) ls1) in *.
  assert (H3 : nth_error (find_missing_pages sp dg parse_int ls2) i = Some s).
  { destruct (C22_missing_pages_partial ls2 i s H2) as (s' & E1 & [->|(M & _)]); [exact E1|]. exfalso. destruct M as (k & n & x & X1 & X2 & _). assert (x = s) as -> by congruence. congruence. }
  set (ls3 := find_missing_pages sp dg parse_int ls2) in *.
  destruct (C23_exact (sc_header_max c) ls3 i s H3) as (s' & H4 & _ & E). rewrite (E Hh) in H4.
  set (ls4 := find_page_headers sp dg (sc_header_max c) ls3) in *.
  set (en := if sc_no_merge_references c then _ else _).
  assert (H5 : nth_error (merge_lines sp false en [u "annex"] ls4) i = Some s).
  { destruct (nth_error_split _ _ H4) as (a & b & E4 & <-).
    assert (Hne : ~ In [] en) by (unfold en; destruct (sc_no_merge_references c); cbn; intros Q; repeat (destruct Q as [Q|Q]; [discriminate|]); exact Q).
    rewrite (proj2 (C63_merge false en [u "annex"] Hne ls4 a s b E4)). unfold expected, merged. now rewrite Ht. }
  rewrite nth_error_map, H5. cbn [option_map]. unfold seg_untagged. now rewrite Ht.
Qed.
End Segmentation.

Definition ascii_int (s : str) : option Z :=
  match s with
  | [] => None
  | _ => if forallb ascii_digit s then Some (fold_left (fun n c => n * 10 + (Z.of_N c - 48)) s 0) else None
  end.
Definition tw (s : string) (v : ostr) : tok := mkTok (u s) v None None None None.
Definition seg_of (s : string) (v : ostr) : segline := mkSeg [tw s v] v (u s).

(** Lines that keep several tags: the most frequent tag is not in the mapping. *)
Theorem C21_one_tag_refuted : exists c d l, nth_error (segmentation ascii_space ascii_digit ascii_int c false d) 0 = Some l
  /\ (exists t1 t2, In t1 l /\ In t2 l /\ is_space ascii_space t1 = false /\ is_space ascii_space t2 = false /\ given LMain t1 <> given LMain t2).
Proof.
  exists (mkSegConfig [(u "front", [u "title"])] 0 50 false), [[tw "a" (Some (u "b-figure")); tw "b" (Some (u "i-figure")); tw "c" None]].
  eexists. split; [vm_compute; reflexivity|]. eexists. eexists. split; [now left|]. split; [right; right; now left|]. repeat split; discriminate.
Qed.
(** The number can be that of the page before, and numbers in a gap need not increase. *)
Theorem C22_strict_refuted : exists ls s s' p1,
  nth_error ls 0 = Some p1 /\ sl_tag p1 = Some (u "page") /\ nth_error ls 1 = Some s /\ truthy (sl_tag s) = false
  /\ nth_error (find_missing_pages ascii_space ascii_digit ascii_int ls) 1 = Some s' /\ sl_tag s' = Some (u "page")
  /\ shown_number ascii_int (sl_text s) = shown_number ascii_int (sl_text p1).
Proof.
  exists [seg_of "5" (Some (u "page")); seg_of "5" None; seg_of "9" (Some (u "page"))]. do 3 eexists. repeat split; vm_compute; reflexivity.
Qed.
Theorem C22_increasing_refuted : exists ls s0 s1 s0' s1',
  nth_error ls 0 = Some s0 /\ nth_error ls 1 = Some s1
  /\ nth_error (find_missing_pages ascii_space ascii_digit ascii_int ls) 0 = Some s0' /\ sl_tag s0' = Some (u "page")
  /\ nth_error (find_missing_pages ascii_space ascii_digit ascii_int ls) 1 = Some s1' /\ sl_tag s1' = Some (u "page")
  /\ truthy (sl_tag s0) = false /\ truthy (sl_tag s1) = false
  /\ shown_number ascii_int (sl_text s1) < shown_number ascii_int (sl_text s0).
Proof.
  exists [seg_of "7" None; seg_of "2" None; seg_of "10" (Some (u "page"))]. do 4 eexists. repeat split; vm_compute; reflexivity.
Qed.
(** A tagged line with the text of a page header loses its tag. *)
Theorem C23_tagged_keep_refuted : exists mx ls s s', nth_error ls 0 = Some s /\ sl_tag s = Some (u "front")
  /\ nth_error (find_page_headers ascii_space ascii_digit mx ls) 0 = Some s' /\ sl_tag s' = Some (u "headnote").
Proof.
  exists 50, [seg_of "my title" (Some (u "front")); seg_of "my title" None; seg_of "my title" None]. do 2 eexists. repeat split; vm_compute; reflexivity.
Qed.

Example C21_ex : map (fun l => map tag l)
  (segmentation ascii_space ascii_digit ascii_int (mkSegConfig [(u "front", [u "title"; u "author"])] 10 50 false) false
     [[tw "a" (Some (u "b-title")); tw " " None; tw "b" None]; [tw "c" None]; [tw "d" (Some (u "b-author"))]; [tw "e" None]])
  = [[Some (u "front"); Some (u "front"); Some (u "front")]; [Some (u "front")]; [Some (u "front")]; [Some (u "body")]].
Proof. vm_compute. reflexivity. Qed.
Example C22_ex : map sl_tag (find_missing_pages ascii_space ascii_digit ascii_int
    [seg_of "1" None; seg_of "x" None; seg_of "3" None; seg_of "4" (Some (u "page")); seg_of "2" None; seg_of "5" None; seg_of "7" (Some (u "page")); seg_of "9" None])
  = [Some (u "page"); None; Some (u "page"); Some (u "page"); None; Some (u "page"); Some (u "page"); None].
Proof. vm_compute. reflexivity. Qed.
Example C22_preserved_ex : map sl_tag (apply_preserved_pages ascii_space
    [mkSeg [mkTok (u "7") None None (Some (u "page")) None None] None (u "7"); mkSeg [mkTok (u "8") None None (Some (u "page")) None None] (Some (u "front")) (u "8"); seg_of "x" None])
  = [Some (u "page"); Some (u "front"); None].
Proof. vm_compute. reflexivity. Qed.
Example C22_gap_ex : exists ls, gap_candidate ascii_digit ascii_int ls 1 0 3 /\ truthy (option_map sl_text (nth_error ls 0)) = true.
Proof.
  exists [seg_of "3" None; seg_of "4" (Some (u "page"))]. split; [|reflexivity]. exists (seg_of "3" None). repeat split. exists 4. split; [lia|]. split; [exists (seg_of "4" (Some (u "page"))); repeat split|]. split; [lia|].
  left. split; [|lia]. intros [|j] n Hj (s & S1 & S2 & _); [injection S1 as <-; discriminate | lia].
Qed.
Example C23_ex : map sl_tag (find_page_headers ascii_space ascii_digit 50
    [seg_of "my title" None; seg_of "x" None; seg_of "my title" None; seg_of "12 3" None; seg_of "12 3" None; seg_of "x" None])
  = [Some (u "headnote"); None; Some (u "headnote"); None; None; None].
Proof. vm_compute. reflexivity. Qed.
Example C63_ex : map sl_tag (merge_lines ascii_space false [u "front"; u "annex"; u "reference"] [u "annex"]
    [seg_of "a" None; seg_of "b" (Some (u "front")); seg_of "c" None; seg_of "d" (Some (u "page")); seg_of "e" None; seg_of "f" (Some (u "reference"));
     seg_of "g" None; seg_of "h" (Some (u "reference")); seg_of "i" (Some (u "annex")); seg_of "j" None])
  = [Some (u "front"); Some (u "front"); None; Some (u "page"); None; Some (u "reference"); Some (u "reference"); Some (u "reference"); Some (u "annex"); Some (u "annex")].
Proof. vm_compute. reflexivity. Qed.
Example C64_ex : map sl_tag (clear_front_after_threshold ascii_space 1 [seg_of "a" None; seg_of "b" (Some (u "front")); seg_of "c" (Some (u "front")); seg_of "d" None; seg_of "e" (Some (u "front"))])
  = [None; Some (u "front"); Some (u "front"); None; None].
Proof. vm_compute. reflexivity. Qed.

Print Assumptions C21_every_line.
Print Assumptions C21_tagged_stay.
Print Assumptions C21_layout.
Print Assumptions C21_one_tag_refuted.
Print Assumptions C22_missing_pages_partial.
Print Assumptions C22_increasing_gap.
Print Assumptions C22_preserved.
Print Assumptions C22_strict_refuted.
Print Assumptions C22_increasing_refuted.
Print Assumptions C23_exact.
Print Assumptions C23_tagged_keep_refuted.
Print Assumptions C63_merge.
Print Assumptions C64_late_front.
