(** C74, C75: runs of the complex matcher *)
From Coq Require Import Permutation Sorted.
From Verif Require Import Base ModelTags ProofTags ModelTokenize ModelTei ModelTeiDoc SpecTeiWrite SpecTeiDoc ProofTeiDoc PropTeiDoc
  ModelJoined PropJoined ModelExtend ModelClusters PropClusters ModelTarget ModelReference PropReferenceDoc ModelFuzzyMatch PropFuzzyMatch ModelWordMatch
  ModelSimpleMatch PropSimpleMatch ModelMatch PropMatch.
Open Scope nat_scope.

(* ---------------------------------------------------------------- *)
(** ** Specification *)
Section Spec.
Variable gap : Z.
Variable begin_prefix : bool.
Definition pos_of (m : smatch) : Z := sq_pos (sm_seq m).
(** position [p] may be searched after the positions [seen] were matched *)
Definition near (seen : list Z) (p : Z) : Prop :=
  gap = 0%Z \/ seen = [] \/ exists o, In o seen /\ (Z.abs (p - o) <= gap + 1)%Z.
(** matches in the order they are found, with the positions seen before and after; the part
    of a match in the following sequence is found together with the match *)
Inductive linked : list Z -> list smatch -> list Z -> Prop :=
| linked_nil seen : linked seen [] seen
| linked_one m ms seen seen' : near seen (pos_of m) -> linked (pos_of m :: seen) ms seen' -> linked seen (m :: ms) seen'
| linked_next m n ms seen seen' : near seen (pos_of m) -> (pos_of m <= pos_of n)%Z ->
    linked (pos_of m :: seen) ms seen' -> linked seen (m :: n :: ms) seen'
| linked_both m n ms seen seen' : near seen (pos_of m) -> (pos_of m <= pos_of n)%Z ->
    linked (pos_of n :: pos_of m :: seen) ms seen' -> linked seen (m :: n :: ms) seen'.
(** a single part of a list of values is not enough for bonding annotations, other than authors *)
Definition enough (a : mann) (ms : list smatch) : Prop :=
  match ma_value a with VOne _ => True | VMany _ => ma_bonding a = false \/ length ms >= 2 \/ ma_name a = u "author" end.
(** what one search returns: matches ordered by position and range *)
Definition before (m n : smatch) : Prop :=
  (pos_of m < pos_of n)%Z \/ pos_of m = pos_of n /\
  ((fst (sm_range m) < fst (sm_range n))%Z \/ fst (sm_range m) = fst (sm_range n) /\ (snd (sm_range m) <= snd (sm_range n))%Z).
Definition searched (a : mann) (seen : list Z) (ms : list smatch) (seen' : list Z) : Prop :=
  exists all, linked seen all seen' /\
    (enough a all /\ Permutation all ms /\ StronglySorted before ms \/ ~ enough a all /\ ms = []).
(** two groups of matches are next to each other *)
Definition first_pos (ms : list smatch) (p : Z) : Prop := In p (map pos_of ms) /\ forall m, In m ms -> (p <= pos_of m)%Z.
Definition last_pos (ms : list smatch) (p : Z) : Prop := In p (map pos_of ms) /\ forall m, In m ms -> (pos_of m <= p)%Z.
Definition adjacent (ms ns : list smatch) : Prop :=
  exists s1 e1 s2 e2, first_pos ms s1 /\ last_pos ms e1 /\ first_pos ns s2 /\ last_pos ns e2 /\
    (Z.abs (s2 - e1) <= 1 \/ Z.abs (s1 - e2) <= 1)%Z.
(** the words of the matches without tag get the tag, the first one the begin tag; sub tags
    only change in these words *)
Definition mark_of (name : str) (first : bool) : str :=
  match name with [] => [] | _ => if begin_prefix then (if first then u "b-" else u "i-") ++ name else name end.
Definition words_marked (a : mann) (ms : list smatch) (d d' : doc) : Prop :=
  let hits := filter (untagged d) (flat_map match_tokens ms) in
  forall q, match tok_at d q with
            | None => tok_at d' q = None
            | Some t => exists t', tok_at d' q = Some t' /\ same_text t t' /\
                (~ In q hits -> tag t' = tag t /\ sub t' = sub t) /\
                (In q hits -> tag t' = Some (mark_of (ma_name a) (match hits with h :: _ => if pos_dec h q then true else false | [] => false end)) /\
                              (sub t' = sub t \/ exists s b, In s (ma_subs a) /\ sub t' = Some (mark_of (ms_name s) b)))
            end.
(** matches that wait for the next annotation are marked if they are next to its matches *)
Notation waiting := (option (mann * list smatch)).
Definition released (w : waiting) (ms : list smatch) (d d' : doc) : Prop :=
  match w with
  | Some (b, bms) => adjacent ms bms /\ words_marked b bms d d' \/ ~ adjacent ms bms /\ d' = d
  | None => d' = d
  end.
Definition accepted (a : mann) (w : waiting) (ms : list smatch) (d : doc) (w' : waiting) (d' : doc) : Prop :=
  ms <> [] /\ exists d1, released w ms d d1 /\
    if ma_next a then d' = d1 /\ w' = Some (a, ms) else words_marked a ms d1 d' /\ w' = w.
(** the searches for one annotation *)
Inductive searches (a : mann) : doc -> waiting -> list Z -> doc -> waiting -> list Z -> Prop :=
| searches_none d w seen seen' : searched a seen [] seen' -> searches a d w seen d None seen'
| searches_last d w seen ms d' w' seen' : searched a seen ms seen' -> accepted a w ms d w' d' -> ma_multiple a = false ->
    searches a d w seen d' w' seen'
| searches_more d w seen ms d1 w1 seen1 d' w' seen' : searched a seen ms seen1 -> accepted a w ms d w1 d1 -> ma_multiple a = true ->
    searches a d1 w1 seen1 d' w' seen' -> searches a d w seen d' w' seen'.
(** all annotations; those that are bonding share what was seen for their name *)
Inductive matcher_run : list mann -> doc -> waiting -> (str -> list Z) -> doc -> Prop :=
| run_end d w mem : matcher_run [] d w mem d
| run_next a l d w mem d1 w1 seen mem1 d' :
    searches a d w (if ma_bonding a then mem (ma_name a) else []) d1 w1 seen ->
    (forall n, mem1 n = if ma_bonding a && streq (ma_name a) n then seen else mem n) ->
    matcher_run l d1 w1 mem1 d' -> matcher_run (a :: l) d w mem d'.
End Spec.
(** when the default filters accept a match *)
Definition good_match (score : Q) (min_count ratio_min_count : Z) (count : Z) (r b_gap a_r : Q) (next : option Q) (previous : bool) : Prop :=
  (ratio_min_count <= count)%Z /\ (score <= r)%Q \/
  (score <= b_gap)%Q /\
    (previous = true \/ (min_count <= count)%Z /\ match next with None => True | Some n => (score <= n)%Q end \/ (score <= a_r)%Q).

Theorem C74_filter score min_count ratio_min fm o previous b : simple_filter score min_count ratio_min fm o previous = Ok b ->
  valid (f_a fm) (f_b fm) (f_blocks fm) -> junk_total (f_junk fm) ->
  match o with Some f => valid (f_a f) (f_b f) (f_blocks f) /\ junk_total (f_junk f) | None => True end ->
  exists r g ar no, ratio fm = Ok r /\ b_gap_ratio fm = Ok g /\ a_ratio fm = Ok ar /\
    match o with Some f => exists nr, ratio f = Ok nr /\ no = Some nr | None => no = None end /\
    (b = true <-> good_match score min_count ratio_min (match_count fm) r g ar no previous).
Proof.
  intros H Hv Hj Ho. destruct (C28_ratios fm Hv Hj) as (r1 & r2 & r3 & r4 & r5 & E1 & E2 & E3 & E4 & _).
  assert (N : exists no, match o with Some f => exists nr, ratio f = Ok nr /\ no = Some nr | None => no = None end).
  { destruct o as [f|]; [|eauto]. destruct Ho as [Ho1 Ho2]. destruct (C28_ratios f Ho1 Ho2) as (s1 & _ & _ & _ & _ & -> & _). eauto. }
  destruct N as [no N]. exists r1, r4, r2, no. split; [exact E1|]. split; [exact E4|]. split; [exact E2|]. split; [exact N|].
  unfold simple_filter, get_fuzzy_match_filter in H. rewrite E1, E2, E4 in H. cbn [bind] in H.
  assert (Q : forall x, Qle_bool score x = true <-> (score <= x)%Q) by (intros; apply Qle_bool_iff).
  assert (Nx : match o with None => Ok true | Some f => do r <- ratio f ;; Ok (Qle_bool score r) end =
               Ok (match no with None => true | Some n => Qle_bool score n end)).
  { destruct o as [f|]; [|now subst no]. destruct N as (nr & -> & ->). reflexivity. }
  rewrite Nx in H. clear Nx. unfold good_match.
  assert (Nq : match no with None => true | Some n => Qle_bool score n end = true <-> match no with None => True | Some n => (score <= n)%Q end).
  { destruct no; [apply Q|tauto]. }
  rewrite <- !Q, <- Nq. revert H. destruct (Z.leb_spec ratio_min (match_count fm)); destruct (Qle_bool score r1); cbn [bind];
    destruct (Qle_bool score r4); cbn [negb]; destruct previous; destruct (Z.leb_spec min_count (match_count fm)); cbn [bind];
    destruct (match no with None => true | Some n => Qle_bool score n end); destruct (Qle_bool score r2); cbn [bind];
    intros [= <-]; intuition (try congruence; try lia).
Qed.
(** The default filters: for sequences at least five matching characters, or fifty and a good
    ratio; for choices one, or a hundred; always with a score of 0.9 (matching_annotator.py
    L233-249). *)
Theorem C74_defaults fm previous b : valid (f_a fm) (f_b fm) (f_blocks fm) -> junk_total (f_junk fm) ->
  (DEFAULT_SEQ_FILTER fm None previous = Ok b -> exists r g ar, ratio fm = Ok r /\ b_gap_ratio fm = Ok g /\ a_ratio fm = Ok ar /\
    (b = true <-> (50 <= match_count fm)%Z /\ (9 # 10 <= r)%Q \/ (9 # 10 <= g)%Q /\ (previous = true \/ (5 <= match_count fm)%Z \/ (9 # 10 <= ar)%Q))) /\
  (DEFAULT_CHOICE_FILTER fm None previous = Ok b -> exists r g ar, ratio fm = Ok r /\ b_gap_ratio fm = Ok g /\ a_ratio fm = Ok ar /\
    (b = true <-> (100 <= match_count fm)%Z /\ (9 # 10 <= r)%Q \/ (9 # 10 <= g)%Q /\ (previous = true \/ (1 <= match_count fm)%Z \/ (9 # 10 <= ar)%Q))).
Proof.
  intros Hv Hj. split; intros H.
  - destruct (C74_filter (9 # 10) 5 50 fm None previous b H Hv Hj I) as (r & g & ar & no & E1 & E2 & E3 & -> & E). exists r, g, ar. repeat split; auto; intros K; [apply E in K|apply E]; unfold good_match in *; tauto.
  - destruct (C74_filter (9 # 10) 1 100 fm None previous b H Hv Hj I) as (r & g & ar & no & E1 & E2 & E3 & -> & E). exists r, g, ar. repeat split; auto; intros K; [apply E in K|apply E]; unfold good_match in *; tauto.
Qed.

(* ---------------------------------------------------------------- *)
(** ** Searching *)
Section Runs.
Variable sp alpha : N -> bool.
Variable lower : str -> str.
Variable blocks : str -> str -> res (list block).
Variable seq_filter choice_filter : fm_filter.
Variable max_gap : Z.
Variable begin_prefix : bool.
Notation tag_of := (tag_of begin_prefix).
Notation dj := (dj alpha).
Notation find_next := (find_next sp alpha blocks seq_filter choice_filter max_gap).
Notation find_list := (find_list sp alpha blocks seq_filter choice_filter max_gap).
Notation do_find := (do_find sp alpha blocks seq_filter choice_filter max_gap).
Notation apply_subs := (apply_subs sp alpha lower blocks seq_filter choice_filter max_gap begin_prefix).
Notation apply_sub := (apply_sub sp alpha lower blocks seq_filter choice_filter max_gap begin_prefix).
Notation apply_match := (apply_match sp alpha lower blocks seq_filter choice_filter max_gap begin_prefix).
Notation apply_matches := (apply_matches sp alpha lower blocks seq_filter choice_filter max_gap begin_prefix).
Notation apply_token := (apply_token sp begin_prefix).
Notation target_loop := (target_loop sp alpha lower blocks seq_filter choice_filter max_gap begin_prefix).
Notation target_step := (target_step sp alpha lower blocks seq_filter choice_filter max_gap begin_prefix).
Notation annotate := (matching_annotate sp alpha lower blocks seq_filter choice_filter max_gap begin_prefix).
Notation njv := (njstr_value alpha lower).
Notation near := (near max_gap).
Notation linked := (linked max_gap).
Notation searched := (searched max_gap).
Notation mark_of := (mark_of begin_prefix).
Notation words_marked := (words_marked begin_prefix).

Lemma near_spec seen p : is_close_to_any max_gap seen p = true <-> near seen p.
Proof.
  unfold is_close_to_any, PropMatchRun.near. destruct (Z.eqb_spec max_gap 0) as [->|Hg]; [cbn; tauto|]. cbn [orb].
  destruct seen as [|x seen]; cbn [nonempty negb]; [tauto|]. rewrite existsb_exists. split.
  - intros (o & H1 & H2). apply Z.leb_le in H2. right. right. eauto.
  - intros [H|[H|(o & H1 & H2)]]; [congruence|discriminate|]. exists o. rewrite Z.leb_le. auto.
Qed.
Lemma linked_app a s1 s2 : linked a s1 s2 -> forall b s3, linked s2 b s3 -> linked a (s1 ++ b) s3.
Proof.
  induction 1; intros b s3 Hb; cbn [app].
  - exact Hb.
  - apply linked_one; auto.
  - apply linked_next; auto.
  - apply linked_both; auto.
Qed.
Definition le_pair (p : option seqp * option seqp) : Prop :=
  match p with (Some x, Some y) => (sq_pos x <= sq_pos y)%Z | _ => True end.
Lemma next_match_shape next fm range ms : next_match next fm range = Ok ms ->
  ms = [] \/ exists n, next = Some n /\ ms = [mkSm n (range fm)].
Proof.
  unfold next_match. destruct (has_match fm); [|intros [= <-]; auto]. destruct next as [n|]; [|discriminate]. intros [= <-]. eauto.
Qed.
Lemma regular_linked s1 choice next matched start prev s :
  regular_step sp alpha blocks seq_filter s1 choice next matched start prev = Ok s ->
  near matched (sq_pos choice) -> le_pair (Some choice, next) -> linked matched (sp_matches s) (sp_matched s).
Proof.
  unfold regular_step, fuzzy_match. destruct (blocks s1 _) as [l|]; [|discriminate]. cbn [bind].
  destruct (b_split_at _ _ _) as [fm fmn]. intros H Hn Hl.
  match type of H with bind ?x _ = _ => destruct x as [acc|]; [|discriminate] end. cbn [bind] in H.
  destruct acc; [|injection H as <-; constructor].
  destruct (next_match next fmn b_index_range) as [nm|] eqn:En; [|discriminate]. cbn [bind] in H. injection H as <-. cbn [sp_matches sp_matched].
  apply next_match_shape in En as [->|(n & -> & ->)]; [apply linked_one; [exact Hn|constructor]|]. apply linked_next; [exact Hn|exact Hl|constructor].
Qed.
Lemma short_linked s1 choice next matched start prev s :
  short_step alpha blocks choice_filter s1 choice next matched start prev = Ok s ->
  near matched (sq_pos choice) -> le_pair (Some choice, next) -> linked matched (sp_matches s) (sp_matched s).
Proof.
  unfold short_step, fuzzy_match. destruct (blocks _ _) as [l|]; [|discriminate]. cbn [bind].
  destruct (a_split_at _ _ _) as [fm fmn]. intros H Hn Hl.
  match type of H with bind ?x _ = _ => destruct x as [acc|]; [|discriminate] end. cbn [bind] in H.
  destruct acc; [|injection H as <-; constructor].
  destruct (next_match next fmn a_index_range) as [nm|] eqn:En; [|discriminate]. cbn [bind] in H. injection H as <-. cbn [sp_matches sp_matched].
  apply next_match_shape in En as [->|(n & -> & ->)]; [apply linked_one; [exact Hn|constructor]|]. apply linked_both; [exact Hn|exact Hl|constructor].
Qed.
Lemma do_find_linked is_sub s1 l : Forall le_pair l -> forall matched start prev ms mt k,
  do_find is_sub s1 l matched start prev = Ok (ms, mt, k) -> linked matched ms mt.
Proof.
  induction 1 as [|[[choice|] next] l Hp Hl IH]; intros matched start prev ms mt k H; cbn [ModelMatch.do_find] in H; [| |discriminate].
  - injection H as <- <- <-. constructor.
  - destruct (is_close_to_any _ _ _) eqn:Ec; cbn [negb] in H.
    2:{ destruct (do_find is_sub s1 l matched start prev) as [[[ms' mt'] k']|] eqn:E; [|discriminate]. cbn [bind] in H.
        injection H as <- <- <-. eapply IH; exact E. }
    apply near_spec in Ec.
    destruct (negb (nonempty _)); [injection H as <- <- <-; constructor|].
    destruct (if is_sub || _ then _ else _) as [s|] eqn:Es; [|discriminate]. cbn [bind] in H.
    assert (F : linked matched (sp_matches s) (sp_matched s)).
    { destruct (is_sub || _); [eapply short_linked|eapply regular_linked]; eassumption. }
    destruct (sp_last s).
    { injection H as <- <- <-. exact F. }
    destruct (do_find is_sub s1 l _ _ _) as [[[ms' mt'] k']|] eqn:E; [|discriminate]. cbn [bind] in H.
    injection H as <- <- <-. eapply linked_app; [exact F|]. eapply IH; exact E.
Qed.
Lemma find_list_linked is_sub l values : Forall le_pair l -> forall matched ms mt ks,
  find_list is_sub l values matched = Ok (ms, mt, ks) -> linked matched ms mt.
Proof.
  intros Hl. induction values as [|s values IH]; intros matched ms mt ks H; cbn [ModelMatch.find_list] in H.
  - injection H as <- <- <-. constructor.
  - destruct (do_find is_sub s l matched 0 false) as [[[ms1 mt1] k1]|] eqn:E1; [|discriminate]. cbn [bind] in H.
    destruct (find_list is_sub l values mt1) as [[[ms2 mt2] ks2]|] eqn:E2; [|discriminate]. cbn [bind] in H. injection H as <- <- <-.
    eapply linked_app; [eapply do_find_linked; [exact Hl|exact E1]|eapply IH; exact E2].
Qed.
Lemma sm_before x y : sm_leb x y = true <-> before x y.
Proof.
  unfold sm_leb, range_leb, before, pos_of. destruct (sm_range x) as [a b], (sm_range y) as [c d]. cbn [fst snd].
  rewrite !orb_true_iff, !andb_true_iff, !orb_true_iff, !andb_true_iff, !Z.ltb_lt, !Z.eqb_eq, Z.leb_le. tauto.
Qed.
Lemma sorted_before l : StronglySorted before (sorted_matches l).
Proof.
  assert (S : StronglySorted (le sm_leb) (sorted_matches l)).
  { apply sort_sorted.
    - intros x y. rewrite !sm_before. unfold before. lia.
    - intros x y z. rewrite !sm_before. unfold before. lia. }
  induction S as [|x r Hs IH Hf]; [constructor|]. constructor; [exact IH|]. eapply Forall_impl; [|exact Hf]. intros y. apply sm_before.
Qed.
Lemma value_shape v w : njv v = Ok w -> match v, w with VOne _, VOne _ => True | VMany _, VMany _ => True | _, _ => False end.
Proof.
  destruct v as [s|l]; unfold njstr_value; [destruct (njstr _ _ _)|destruct (mapM _ _)]; cbn [bind]; intros [= <-]; exact I.
Qed.
Lemma find_searched a value d f matched ms mt f' : njv (ma_value a) = Ok value -> Forall le_pair (pairs d f) ->
  find_next false (ma_name a) (ma_bonding a) value d f matched = Ok (ms, mt, f') -> searched a matched (sorted_matches ms) mt.
Proof.
  intros Hv Hl H. apply value_shape in Hv. unfold PropMatchRun.searched, enough. unfold ModelMatch.find_next in H.
  destruct (ma_value a) as [v|vs], value as [s|values]; try contradiction.
  - destruct (do_find false s _ matched 0 false) as [[[ms1 mt1] k1]|] eqn:E1; [|discriminate]. cbn [bind] in H. injection H as <- <- <-.
    exists ms1. split; [eapply do_find_linked; [exact Hl|exact E1]|]. left. split; [exact I|]. split; [symmetry; apply sort_perm|apply sorted_before].
  - destruct (find_list false _ values matched) as [[[ms1 mt1] ks]|] eqn:E1; [|discriminate]. cbn [bind] in H. injection H as <- <- <-.
    exists ms1. split; [eapply find_list_linked; [exact Hl|exact E1]|].
    destruct (negb (ma_bonding a) || Nat.ltb 1 (length ms1) || streq (ma_name a) (u "author")) eqn:Ek.
    + left. split; [|split; [symmetry; apply sort_perm|apply sorted_before]]. apply orb_true_iff in Ek as [Ek|Ek]; [apply orb_true_iff in Ek as [Ek|Ek]|].
      * left. now apply negb_true_iff.
      * right. left. apply Nat.ltb_lt in Ek. lia.
      * right. right. now apply streq_true.
    + right. split; [|reflexivity]. apply orb_false_iff in Ek as [Ek E3]. apply orb_false_iff in Ek as [Ek E2].
      intros [H|[H|H]]; [rewrite H in Ek; discriminate|apply Nat.ltb_ge in E2; lia|]. rewrite H in E3. now rewrite streq_refl in E3.
Qed.

(* ---------------------------------------------------------------- *)
(** *** Positions of the choices *)
Definition lower_bound (p : Z) (g : gen) : Prop := Forall (fun s => (p <= sq_pos s)%Z) (g_buffer g ++ g_rest g).
Definition sorted_pos (l : list seqp) : Prop := StronglySorted (fun x y => (sq_pos x <= sq_pos y)%Z) l.
Definition finder_sorted (f : finder) : Prop := sorted_pos (fi_log f ++ g_buffer (fi_gen f) ++ g_rest (fi_gen f)).
Lemma sorted_pos_app a b : sorted_pos (a ++ b) <-> sorted_pos a /\ sorted_pos b /\ forall x y, In x a -> In y b -> (sq_pos x <= sq_pos y)%Z.
Proof.
  unfold sorted_pos. induction a as [|x a IH]; cbn [app].
  - split; [intros H; split; [constructor|split; [exact H|easy]]|tauto].
  - split.
    + intros H. inversion H as [|? ? H1 H2]; subst. apply IH in H1 as (I1 & I2 & I3). apply Forall_app in H2 as [H2 H3].
      split; [constructor; assumption|]. split; [exact I2|]. intros y z [<-|Hy] Hz; [rewrite Forall_forall in H3; auto|auto].
    + intros (H1 & H2 & H3). inversion H1 as [|? ? I1 I2]; subst. constructor.
      * apply IH. split; [exact I1|]. split; [exact H2|]. intros y z Hy. apply H3. now right.
      * apply Forall_app. split; [exact I2|]. apply Forall_forall. intros y Hy. apply H3; [now left|exact Hy].
Qed.
Lemma sub_pos d s x : In x (sub_sequences d s) -> sq_pos x = sq_pos s.
Proof. unfold sub_sequences. intros H. apply in_map_iff in H as (q & <- & _). reflexivity. Qed.
Lemma const_sorted p l : (forall x, In x l -> sq_pos x = p) -> sorted_pos l.
Proof.
  induction l as [|x l IH]; intros H; [constructor|]. constructor; [apply IH; intros; apply H; now right|].
  apply Forall_forall. intros y Hy. rewrite (H x), (H y); [lia|now right|now left].
Qed.
Lemma pull_rest_sorted d l : forall log, sorted_pos (log ++ l) -> forall o g, pull_rest d l = (o, g) ->
  sorted_pos ((log ++ match o with Some x => [x] | None => [] end) ++ g_buffer g ++ g_rest g).
Proof.
  induction l as [|s l IH]; intros log H o g E; cbn [pull_rest] in E.
  - injection E as <- <-. cbn. now rewrite !app_nil_r in *.
  - apply sorted_pos_app in H as (H1 & H2 & H3). inversion H2 as [|? ? K1 K2]; subst. rewrite Forall_forall in K2.
    destruct (sub_sequences d s) as [|x r] eqn:Es.
    + apply IH; [|exact E]. apply sorted_pos_app. split; [exact H1|]. split; [exact K1|]. intros a b Ha Hb. apply H3; [exact Ha|now right].
    + injection E as <- <-. cbn [g_buffer g_rest]. assert (P : forall y, In y (x :: r) -> sq_pos y = sq_pos s) by (intros y Hy; rewrite <- Es in Hy; eapply sub_pos; exact Hy).
      rewrite <- app_assoc. cbn [app]. apply sorted_pos_app. split; [exact H1|]. split.
      * change (x :: r ++ l) with ((x :: r) ++ l). apply sorted_pos_app. split; [now apply const_sorted with (sq_pos s)|]. split; [exact K1|].
        intros a b Ha Hb. rewrite (P a Ha). now apply K2.
      * intros a b Ha Hb. change (x :: r ++ l) with ((x :: r) ++ l) in Hb. apply in_app_or in Hb as [Hb|Hb].
        -- rewrite (P b Hb). apply H3; [exact Ha|now left].
        -- apply H3; [exact Ha|now right].
Qed.
Lemma pull_sorted d g log : sorted_pos (log ++ g_buffer g ++ g_rest g) -> forall o g', pull d g = (o, g') ->
  sorted_pos ((log ++ match o with Some x => [x] | None => [] end) ++ g_buffer g' ++ g_rest g').
Proof.
  destruct g as [[|x l] rest]; unfold pull; cbn [g_buffer g_rest app]; intros H o g' E.
  - eapply pull_rest_sorted; eassumption.
  - injection E as <- <-. cbn [g_buffer g_rest]. rewrite <- app_assoc. exact H.
Qed.
Lemma fill_sorted d n : forall log g, sorted_pos (log ++ g_buffer g ++ g_rest g) ->
  sorted_pos (fst (fill d n log g) ++ g_buffer (snd (fill d n log g)) ++ g_rest (snd (fill d n log g))).
Proof.
  induction n as [|n IH]; intros log g H; cbn [fill]; [exact H|]. destruct (pull d g) as [o g'] eqn:E.
  pose proof (pull_sorted d g log H o g' E) as P. destruct o as [x|]; [apply IH; exact P|]. now rewrite app_nil_r in P.
Qed.
Lemma advance_sorted d k m f : finder_sorted f -> finder_sorted (advance d k m f).
Proof. intros H. unfold advance, finder_sorted. cbn [fi_log fi_gen]. now apply fill_sorted. Qed.
Lemma items_sorted d f : finder_sorted f -> sorted_pos (all_items d f).
Proof.
  unfold finder_sorted, all_items. rewrite !app_assoc. generalize (fi_log f ++ g_buffer (fi_gen f)) as log.
  induction (g_rest (fi_gen f)) as [|s l IH]; intros log H; cbn [flat_map]; [exact H|]. rewrite app_assoc. apply IH.
  apply sorted_pos_app in H as (H1 & H2 & H3). inversion H2 as [|? ? K1 K2]; subst. rewrite Forall_forall in K2.
  assert (P : forall y, In y (sub_sequences d s) -> sq_pos y = sq_pos s) by (intros; eapply sub_pos; eassumption).
  apply sorted_pos_app. split; [|split; [exact K1|]].
  - apply sorted_pos_app. split; [exact H1|]. split; [now apply const_sorted with (sq_pos s)|]. intros a b Ha Hb. rewrite (P b Hb). apply H3; [exact Ha|now left].
  - intros a b Ha Hb. apply in_app_or in Ha as [Ha|Ha]; [apply H3; [exact Ha|now right]|rewrite (P a Ha); now apply K2].
Qed.
Lemma zip_in (a : list seqp) : forall b x y, In (Some x, Some y) (zip_longest a b) -> exists i, nth_error a i = Some x /\ nth_error b i = Some y.
Proof.
  induction a as [|p a IH]; intros [|q b] x y H; cbn [zip_longest] in H.
  - contradiction.
  - destruct H as [H|H]; [discriminate|]. apply in_map_iff in H as (z & H & _). discriminate.
  - destruct H as [H|H]; [discriminate|]. apply IH in H as (i & _ & H). destruct i; discriminate.
  - destruct H as [H|H]; [injection H as -> ->; exists 0; auto|]. apply IH in H as (i & H1 & H2). exists (S i). auto.
Qed.
Lemma nth_skipn {A} n : forall (l : list A) i, nth_error (skipn n l) i = nth_error l (n + i).
Proof. induction n as [|n IH]; intros [|x l] i; cbn; auto. destruct i; reflexivity. Qed.
Lemma sorted_nth l : sorted_pos l -> forall i j x y, i <= j -> nth_error l i = Some x -> nth_error l j = Some y -> (sq_pos x <= sq_pos y)%Z.
Proof.
  induction 1 as [|z l Hs IH Hf]; intros i j x y Hij Hi Hj; [destruct i; discriminate|]. destruct j as [|j].
  - replace i with 0 in Hi by lia. rewrite Hi in Hj. injection Hj as ->. lia.
  - destruct i as [|i]; [|exact (IH i j x y ltac:(lia) Hi Hj)]. injection Hi as ->. rewrite Forall_forall in Hf. apply Hf. eapply nth_error_In. exact Hj.
Qed.
Lemma pairs_le d f : finder_sorted f -> fi_cur f < fi_next f -> Forall le_pair (pairs d f).
Proof.
  intros H Hc. apply Forall_forall. intros [[x|] [y|]] Hp; try exact I. unfold pairs in Hp. apply zip_in in Hp as (i & H1 & H2).
  rewrite nth_skipn in H1, H2. cbn. eapply sorted_nth; [apply items_sorted; exact H| |exact H1|exact H2]. lia.
Qed.
Lemma with_positions_sorted l : forall i, sorted_pos (with_positions i l) /\ Forall (fun s => (i <= sq_pos s)%Z) (with_positions i l).
Proof.
  induction l as [|q l IH]; intros i; cbn [with_positions]; [split; constructor|]. destruct (IH (i + 1)%Z) as [H1 H2].
  assert (F : Forall (fun s => (i <= sq_pos s)%Z) (with_positions (i + 1) l)) by (eapply Forall_impl; [|exact H2]; cbn beta; lia).
  split; constructor; cbn; auto; try lia.
Qed.

(* ---------------------------------------------------------------- *)
(** *** Distances *)
Lemma fold_min_spec l : forall x, let m := fold_left Z.min l x in In m (x :: l) /\ (m <= x)%Z /\ forall y, In y l -> (m <= y)%Z.
Proof.
  induction l as [|z l IH]; intros x; cbn zeta; cbn [fold_left]; [split; [now left|split; [lia|easy]]|].
  destruct (IH (Z.min x z)) as (H1 & H2 & H3). split; [|split; [lia|]].
  - destruct H1 as [H1|H1]; [|right; now right]. destruct (Z.min_spec x z) as [[_ E]|[_ E]]; [left|right; left]; congruence.
  - intros y [<-|Hy]; [lia|auto].
Qed.
Lemma fold_max_spec l : forall x, let m := fold_left Z.max l x in In m (x :: l) /\ (x <= m)%Z /\ forall y, In y l -> (y <= m)%Z.
Proof.
  induction l as [|z l IH]; intros x; cbn zeta; cbn [fold_left]; [split; [now left|split; [lia|easy]]|].
  destruct (IH (Z.max x z)) as (H1 & H2 & H3). split; [|split; [lia|]].
  - destruct H1 as [H1|H1]; [|right; now right]. destruct (Z.max_spec x z) as [[_ E]|[_ E]]; [right; left|left]; congruence.
  - intros y [<-|Hy]; [lia|auto].
Qed.
Lemma range_first_last ms : ms <> [] -> first_pos ms (fst (position_range ms)) /\ last_pos ms (snd (position_range ms)).
Proof.
  unfold position_range, first_pos, last_pos. intros Hn. change (fun m => sq_pos (sm_seq m)) with pos_of.
  destruct ms as [|m ms]; [congruence|]. cbn [map fst snd].
  destruct (fold_min_spec (map pos_of ms) (pos_of m)) as (A1 & A2 & A3). destruct (fold_max_spec (map pos_of ms) (pos_of m)) as (B1 & B2 & B3).
  split; (split; [assumption|]); intros x [<-|Hx]; auto; [apply A3|apply B3]; now apply in_map.
Qed.
Lemma first_unique ms p q : first_pos ms p -> first_pos ms q -> p = q.
Proof.
  intros [P1 P2] [Q1 Q2]. apply in_map_iff in P1 as (x & <- & P1). apply in_map_iff in Q1 as (y & <- & Q1).
  specialize (P2 y Q1). specialize (Q2 x P1). lia.
Qed.
Lemma last_unique ms p q : last_pos ms p -> last_pos ms q -> p = q.
Proof.
  intros [P1 P2] [Q1 Q2]. apply in_map_iff in P1 as (x & <- & P1). apply in_map_iff in Q1 as (y & <- & Q1).
  specialize (P2 y Q1). specialize (Q2 x P1). lia.
Qed.
(** The distance of two groups of matches is at most one exactly if they are next to each other. *)
Theorem C74_distance ms ns : ms <> [] -> ns <> [] -> ((distance_between ms ns <= 1)%Z <-> adjacent ms ns).
Proof.
  intros Hm Hn. destruct (range_first_last ms Hm) as [M1 M2]. destruct (range_first_last ns Hn) as [N1 N2]. unfold distance_between.
  destruct (position_range ms) as [s1 e1], (position_range ns) as [s2 e2]. cbn [fst snd] in *. split.
  - intros H. exists s1, e1, s2, e2. repeat (split; [assumption|]). lia.
  - intros (s1' & e1' & s2' & e2' & A & B & C & D & H).
    rewrite (first_unique _ _ _ A M1), (last_unique _ _ _ B M2), (first_unique _ _ _ C N1), (last_unique _ _ _ D N2) in H. lia.
Qed.

(* ---------------------------------------------------------------- *)
(** *** Marking *)
Lemma tag_of_mark name b : tag_of name b = Some (mark_of name b).
Proof. unfold ModelMatch.tag_of, PropMatchRun.mark_of. destruct begin_prefix, name as [|x n], b; reflexivity. Qed.
Definition is_head (hits : list (nat * nat)) (q : nat * nat) : bool :=
  match hits with h :: _ => if pos_dec h q then true else false | [] => false end.
(** while the words [seen] of matches of [a] are marked in [d0] *)
Definition marking (a : mann) (d0 : doc) (seen : list (nat * nat)) (st : doc * bool * list (nat * nat)) : Prop :=
  let '(d, first, all) := st in let hits := filter (untagged d0) seen in
  (first = true <-> hits = []) /\ (forall q, In q all <-> In q hits) /\
  forall q, match tok_at d0 q with
            | None => tok_at d q = None
            | Some t => exists t', tok_at d q = Some t' /\ same_text t t' /\
                (~ In q hits -> tag t' = tag t /\ sub t' = sub t) /\
                (In q hits -> tag t' = Some (mark_of (ma_name a) (is_head hits q)) /\
                              (sub t' = sub t \/ exists s b, In s (ma_subs a) /\ sub t' = Some (mark_of (ms_name s) b)))
            end.
Lemma mark_truthy name b : truthy (Some (mark_of name b)) = true \/ name = [].
Proof. unfold PropMatchRun.mark_of. destruct name as [|x n]; [now right|left]. destruct begin_prefix, b; reflexivity. Qed.
Lemma untagged_tok d p t : tok_at d p = Some t -> untagged d p = negb (truthy (tag t)).
Proof. intros E. unfold untagged, main_tag. now rewrite at_pos_eq, E. Qed.
Lemma is_head_app hits p q : hits <> [] -> is_head (hits ++ [p]) q = is_head hits q.
Proof. destruct hits; [congruence|reflexivity]. Qed.
Lemma token_marking a d0 seen st p : marking a d0 seen st -> marking a d0 (seen ++ [p]) (apply_token (ma_name a) st p).
Proof.
  destruct st as [[d first] all]. intros (H1 & H2 & H3). unfold ModelMatch.apply_token, marking. rewrite filter_app. cbn [filter].
  set (hits := filter (untagged d0) seen) in *.
  destruct (truthy (main_tag d p)) eqn:Et.
  - (* has a tag now *)
    destruct (untagged d0 p) eqn:Eu; [|rewrite app_nil_r; auto].
    assert (Hp : In p hits).
    { destruct (in_dec pos_dec p hits) as [Hp|Hp]; [exact Hp|exfalso]. specialize (H3 p). destruct (tok_at d0 p) as [t|] eqn:E0.
      - destruct H3 as (t' & E' & _ & K & _). destruct (K Hp) as [K1 _]. rewrite (untagged_tok d0 p t E0) in Eu.
        unfold main_tag in Et. rewrite at_pos_eq, E', K1 in Et. rewrite Et in Eu. discriminate.
      - unfold main_tag in Et. rewrite at_pos_eq, H3 in Et. discriminate. }
    assert (Hn : hits <> []) by (intros E; rewrite E in Hp; contradiction).
    assert (I : forall q, In q (hits ++ [p]) <-> In q hits).
    { intros q. rewrite in_app_iff. cbn. split; [intros [H|[<-|[]]]; auto|auto]. }
    split; [|split].
    + rewrite H1. split; [congruence|]. intros E. destruct hits; discriminate.
    + intros q. rewrite I. apply H2.
    + intros q. specialize (H3 q). destruct (tok_at d0 q) as [t|]; [|exact H3]. destruct H3 as (t' & E' & S & K1 & K2).
      exists t'. split; [exact E'|]. split; [exact S|]. rewrite I, is_head_app by exact Hn. auto.
  - (* has none: it gets one *)
    assert (Eu : untagged d0 p = true).
    { destruct (untagged d0 p) eqn:Eu; [reflexivity|exfalso]. assert (Hp : ~ In p hits) by (intros Hp; apply filter_In in Hp as [_ Hp]; congruence).
      specialize (H3 p). destruct (tok_at d0 p) as [t|] eqn:E0.
      - destruct H3 as (t' & E' & _ & K & _). destruct (K Hp) as [K1 _]. rewrite (untagged_tok d0 p t E0) in Eu.
        unfold main_tag in Et. rewrite at_pos_eq, E', K1 in Et. rewrite Et in Eu. discriminate.
      - unfold untagged, main_tag in Eu. rewrite at_pos_eq, E0 in Eu. discriminate. }
    rewrite Eu. split; [|split].
    + split; [discriminate|]. intros E. destruct hits; discriminate.
    + intros q. rewrite !in_app_iff, H2. reflexivity.
    + intros q. specialize (H3 q) as H3q. destruct (tok_at d0 q) as [t|] eqn:E0; [|now apply tok_at_set_none].
      destruct H3q as (t1 & E1 & S1 & K1 & K2). destruct (set_any sp LMain p (tag_of (ma_name a) first) d q t1 E1) as (t2 & E2 & S2 & Gv & _).
      exists t2. split; [exact E2|]. split; [eapply same_text_trans; eassumption|].
      pose proof (Gv LMain) as G1. pose proof (Gv LSub) as G2. cbn in G1, G2.
      destruct (Nat.eqb (fst p) (fst q) && Nat.eqb (snd p) (snd q)) eqn:Ep.
      * apply pos_eqb in Ep. subst q. split; [intros N; exfalso; apply N, in_or_app; right; now left|]. intros _. split.
        -- rewrite G1, tag_of_mark. f_equal. destruct first eqn:Ef.
           ++ rewrite (proj1 H1 eq_refl). cbn. destruct (pos_dec p p); [reflexivity|congruence].
           ++ assert (Hn : hits <> []) by (intros E; apply H1 in E; discriminate). rewrite is_head_app by exact Hn.
              destruct (is_head hits p) eqn:Eh; [|reflexivity].
              assert (Hp : In p hits) by (destruct hits as [|h hs]; [discriminate|]; cbn in Eh; destruct (pos_dec h p) as [->|]; [now left|discriminate]).
              destruct (K2 Hp) as [K3 _]. unfold main_tag in Et. rewrite at_pos_eq, E1, K3 in Et.
              destruct (mark_truthy (ma_name a) true) as [M|M]; [rewrite Et in M; discriminate|]. rewrite M. reflexivity.
        -- rewrite G2. destruct (in_dec pos_dec p hits) as [Hp|Hp]; [now apply K2|left; now apply K1].
      * assert (Hq : p <> q) by (intros <-; rewrite (proj2 (pos_eqb p p)) in Ep by reflexivity; discriminate).
        assert (I : In q (hits ++ [p]) <-> In q hits).
        { rewrite in_app_iff. cbn. split; [intros [H|[H|[]]]; [exact H|congruence]|auto]. }
        rewrite I, G1, G2. split; [exact K1|]. intros Hh. rewrite is_head_app by (intros E; rewrite E in Hh; contradiction). auto.
Qed.
Lemma tokens_marking a d0 ps : forall seen st, marking a d0 seen st -> marking a d0 (seen ++ ps) (fold_left (apply_token (ma_name a)) ps st).
Proof.
  induction ps as [|p ps IH]; intros seen st H; [now rewrite app_nil_r|]. cbn [fold_left].
  replace (seen ++ p :: ps) with ((seen ++ [p]) ++ ps) by now rewrite <- app_assoc. apply IH. now apply token_marking.
Qed.
Lemma sub_marking a d0 seen d first all p s b : In p all -> In s (ma_subs a) -> marking a d0 seen (d, first, all) ->
  marking a d0 seen (set_tag sp LSub p (tag_of (ms_name s) b) d, first, all).
Proof.
  intros Hp Hs (H1 & H2 & H3). split; [exact H1|]. split; [exact H2|]. intros q. specialize (H3 q). destruct (tok_at d0 q) as [t|]; [|now apply tok_at_set_none].
  destruct H3 as (t1 & E1 & S1 & K1 & K2). destruct (set_any sp LSub p (tag_of (ms_name s) b) d q t1 E1) as (t2 & E2 & S2 & Gv & _).
  exists t2. split; [exact E2|]. split; [eapply same_text_trans; eassumption|].
  pose proof (Gv LMain) as G1. pose proof (Gv LSub) as G2. cbn in G1, G2.
  destruct (Nat.eqb (fst p) (fst q) && Nat.eqb (snd p) (snd q)) eqn:Ep.
  - apply pos_eqb in Ep. subst q. apply H2 in Hp. split; [intros N; now apply N in Hp|]. intros _. destruct (K2 Hp) as [K3 _]. rewrite G1, G2. split; [exact K3|].
    right. exists s, b. split; [exact Hs|]. apply tag_of_mark.
  - rewrite G1, G2. auto.
Qed.
Lemma subs_marking a d0 seen d first all d' : marking a d0 seen (d, first, all) ->
  apply_subs (ma_subs a) all d = Ok d' -> marking a d0 seen (d', first, all).
Proof.
  intros H. unfold ModelMatch.apply_subs. set (s := sub_sequence sp lower d all).
  assert (Hs : incl (map w_tok (sq_words s)) all) by apply wrap_toks. clearbody s.
  destruct (foldM _ _ _) as [[d1 mt1]|] eqn:E; [|discriminate]. cbn [bind fst]. intros [= <-].
  assert (X : (fun st : doc * list Z => marking a d0 seen (fst st, first, all)) (d1, mt1)); [|exact X].
  eapply (foldM_inv (fun st : doc * list Z => marking a d0 seen (fst st, first, all))); [| |exact E]; [|exact H].
  intros [b mb] sa [b' mb'] Hin Hb Hstep. cbn [fst] in *. unfold ModelMatch.apply_sub in Hstep. cbn [fst snd] in Hstep.
  destruct (find_next true _ _ _ b _ mb) as [[[ms mt] f']|] eqn:Ef; [|discriminate]. cbn [bind] in Hstep. injection Hstep as <- <-.
  assert (F : Forall (fun m => incl (match_tokens m) all) ms).
  { destruct (sq_words s) eqn:Ew; [rewrite (sub_matches_empty _ _ _ _ _ _ _ _ _ _ _ _ _ _ _ Ew Ef); constructor|].
    eapply Forall_impl; [|eapply sub_matches; [exact lower| |exact Ef]; congruence]. intros m Hm. cbn beta in Hm. rewrite Ew in Hm. eapply incl_tran; eassumption. }
  assert (F' : forall x, In x (firsts (flat_map match_tokens ms)) -> In (fst x) all).
  { intros x Hx. apply firsts_in, in_flat_map in Hx as (m & Hm & Hx). rewrite Forall_forall in F. now apply (F m Hm). }
  apply (fold_inv (fun x => marking a d0 seen (x, first, all))); [|exact Hb].
  intros y x Hx Hy. apply sub_marking; auto.
Qed.
(** The words of the matches that have no tag get the tag, the first of them the begin tag;
    sub tags only change in these words and only to those of the sub annotations. *)
Theorem C75_marks a ms d d' : apply_matches a ms d = Ok d' -> words_marked a ms d d'.
Proof.
  unfold ModelMatch.apply_matches. destruct (foldM _ _ _) as [[[d1 f1] all1]|] eqn:E; [|discriminate]. cbn [bind fst]. intros [= <-].
  assert (G : forall ms seen st st', marking a d seen st -> foldM (apply_match a) st ms = Ok st' -> marking a d (seen ++ flat_map match_tokens ms) st').
  { clear. induction ms as [|m ms IH]; intros seen st st' H E; cbn [foldM flat_map] in *; [injection E as <-; now rewrite app_nil_r|].
    destruct (apply_match a st m) as [st1|] eqn:Em; [|discriminate]. cbn [bind] in E. rewrite app_assoc. eapply IH; [|exact E].
    unfold ModelMatch.apply_match in Em. pose proof (tokens_marking a d (match_tokens m) seen st H) as Ht.
    destruct (fold_left _ (match_tokens m) st) as [[d2 f2] all2].
    destruct (ma_subs a) as [|s0 subs] eqn:Es; [injection Em as <-; exact Ht|]. rewrite <- Es in Em.
    destruct (apply_subs (ma_subs a) all2 d2) as [d3|] eqn:E3; [|discriminate]. cbn [bind] in Em. injection Em as <-.
    eapply subs_marking; eassumption. }
  assert (M : marking a d [] (d, true, [])).
  { split; [cbn; tauto|]. split; [cbn; tauto|]. intros q. destruct (tok_at d q) as [t|]; [|reflexivity]. exists t. split; [reflexivity|]. split; [repeat split|]. split; [auto|intros []]. }
  apply (G ms [] _ _ M) in E. destruct E as (_ & _ & E). exact E.
Qed.

(* ---------------------------------------------------------------- *)
(** *** Runs *)
Notation searches := (searches max_gap begin_prefix).
Notation run := (matcher_run max_gap begin_prefix).
Lemma find_next_finder is_sub name bonding value d f matched ms mt f' : fi_cur f < fi_next f -> finder_sorted f ->
  find_next is_sub name bonding value d f matched = Ok (ms, mt, f') -> fi_cur f' < fi_next f' /\ finder_sorted f'.
Proof.
  intros Hc Hs H. unfold ModelMatch.find_next in H. destruct value as [s|values].
  - destruct (do_find is_sub s _ matched 0 false) as [[[ms1 mt1] k1]|] eqn:E1; [|discriminate]. cbn [bind] in H. injection H as <- <- <-.
    split; [cbn; lia|now apply advance_sorted].
  - destruct (find_list is_sub _ values matched) as [[[ms1 mt1] ks]|] eqn:E1; [|discriminate]. cbn [bind] in H. injection H as <- <- <-.
    split; [|now apply advance_sorted]. pose proof (hd_max ks). cbn. lia.
Qed.
Lemma loop_searches a value fuel : njv (ma_value a) = Ok value -> forall d cm f matched d' cm' mt,
  match cm with Some (_, cms) => cms <> [] | None => True end -> fi_cur f < fi_next f -> finder_sorted f ->
  target_loop fuel a value d cm f matched = Ok (d', cm', mt) ->
  searches a d cm matched d' cm' mt /\ match cm' with Some (_, cms) => cms <> [] | None => True end.
Proof.
  intros Hv. induction fuel as [|fuel IH]; intros d cm f matched d' cm' mt Hc Hf Hs H; [discriminate|].
  cbn [ModelMatch.target_loop] in H.
  destruct (find_next false _ _ value d f matched) as [[[found mt1] f1]|] eqn:Ef; [|discriminate]. cbn [bind] in H.
  pose proof (find_searched a value d f matched found mt1 f1 Hv (pairs_le d f Hs Hf) Ef) as S.
  destruct (find_next_finder _ _ _ _ _ _ _ _ _ _ Hf Hs Ef) as [Hf1 Hs1].
  destruct (sorted_matches found) as [|m0 ms0]; [injection H as <- <- <-; split; [now apply searches_none|exact I]|].
  set (ms := m0 :: ms0) in *. assert (Hm : ms <> []) by discriminate. clearbody ms.
  destruct (match cm with Some _ => _ | None => _ end) as [d1|] eqn:E1; [|discriminate]. cbn [bind] in H.
  assert (R : released begin_prefix cm ms d d1).
  { destruct cm as [[ca cms]|]; [|injection E1 as <-; reflexivity]. unfold released. pose proof (C74_distance ms cms Hm Hc) as D.
    destruct (Z.leb_spec (distance_between ms cms) 1).
    - left. split; [now apply D|]. eapply C75_marks. exact E1.
    - right. injection E1 as <-. split; [|reflexivity]. rewrite <- D. lia. }
  destruct (if ma_next a then _ else _) as [[d2 cm2]|] eqn:E2; [|discriminate]. cbn [bind] in H.
  assert (A : accepted begin_prefix a cm ms d cm2 d2 /\ match cm2 with Some (_, cms) => cms <> [] | None => True end).
  { unfold accepted. destruct (ma_next a).
    - injection E2 as <- <-. split; [|exact Hm]. split; [exact Hm|]. exists d1. auto.
    - destruct (apply_matches a ms d1) as [d3|] eqn:E3; [|discriminate]. cbn [bind] in E2. injection E2 as <- <-. split; [|exact Hc].
      split; [exact Hm|]. exists d1. split; [exact R|]. split; [eapply C75_marks; exact E3|reflexivity]. }
  destruct A as [A C2]. destruct (ma_multiple a) eqn:Emu.
  - destruct (IH d2 cm2 f1 mt1 d' cm' mt C2 Hf1 Hs1 H) as [I1 I2]. split; [|exact I2]. eapply searches_more; eassumption.
  - injection H as <- <- <-. split; [|exact C2]. eapply searches_last; eassumption.
Qed.
(** Every run of the complex matcher is a sequence of searches as specified. *)
Theorem C74_run fuel targets d d' : annotate fuel targets d = Ok d' -> run targets d None (fun _ => []) d'.
Proof.
  unfold matching_annotate. destruct (sequences sp alpha lower d) as [seqs|] eqn:Es; [|discriminate]. cbn [bind].
  assert (Hs : sorted_pos seqs).
  { unfold sequences in Es. destruct (mapM _ _) as [l|]; [|discriminate]. cbn [bind] in Es. injection Es as <-. apply with_positions_sorted. }
  clear Es. destruct (foldM _ _ targets) as [[[d1 cm1] mm1]|] eqn:E; [|discriminate]. cbn [bind fst]. intros [= <-].
  assert (G : forall targets d cm mmap st mem, (forall n, mem n = match dict_get n mmap with Some l => l | None => [] end) ->
    match cm with Some (_, cms) => cms <> [] | None => True end ->
    foldM (target_step fuel seqs) (d, cm, mmap) targets = Ok st -> run targets d cm mem (fst (fst st))).
  { clear - Hs. induction targets as [|a l IH]; intros d cm mmap st mem Hm Hc E; cbn [foldM] in E; [injection E as <-; constructor|].
    destruct (target_step fuel seqs (d, cm, mmap) a) as [[[d1 cm1] mm1]|] eqn:E1; [|discriminate]. cbn [bind] in E. unfold ModelMatch.target_step in E1.
    destruct (njv (ma_value a)) as [value|] eqn:Ev; [|discriminate]. cbn [bind] in E1.
    destruct (target_loop fuel a value d cm _ _) as [[[d2 cm2] mt2]|] eqn:El; [|discriminate]. cbn [bind] in E1. injection E1 as <- <- Emm.
    apply loop_searches in El as [L1 L2]; [|exact Ev|exact Hc|cbn; lia|exact Hs].
    eapply run_next with (mem1 := fun n => if ma_bonding a && streq (ma_name a) n then mt2 else mem n).
    - destruct (ma_bonding a); [rewrite Hm|]; exact L1.
    - reflexivity.
    - eapply IH; [|exact L2|exact E]. intros n. cbn beta. rewrite Hm. subst mm1. destruct (ma_bonding a); cbn [andb]; [|reflexivity].
      destruct (streq (ma_name a) n) eqn:Es.
      + apply streq_true in Es. subst n. now rewrite dict_get_set_same.
      + apply streq_false in Es. rewrite dict_get_set_other by congruence. reflexivity. }
  apply (G targets d None [] (d1, cm1, mm1)); [reflexivity|exact I|exact E].
Qed.
End Runs.

(* ---------------------------------------------------------------- *)
(** ** Examples *)
Definition ex_lines : doc := [[plain "label"; plain "first"]; [plain "about"; plain "things"]; [plain "other"; plain "words"]; [plain "several"; plain "things"]].
Definition ex_label : mann := mkMann (u "label") (VOne (u "Label first")) false false true [].
Definition ex_body (v : string) : mann := mkMann (u "title") (VOne (u v)) false false false [].
(** the label waits for the title: it is marked if the title is on the next line only *)
Example C74_ex_waiting :
  ex_tags (annotate_ex 20 [ex_label; ex_body "About things"] ex_lines) =
    Some [[(Some (u "b-label"), None); (Some (u "i-label"), None)]; [(Some (u "b-title"), None); (Some (u "i-title"), None)];
          [(None, None); (None, None)]; [(None, None); (None, None)]] /\
  ex_tags (annotate_ex 20 [ex_label; ex_body "several things"] ex_lines) =
    Some [[(None, None); (None, None)]; [(None, None); (None, None)];
          [(None, None); (None, None)]; [(Some (u "b-title"), None); (Some (u "i-title"), None)]].
Proof. split; vm_compute; reflexivity. Qed.
(** one part of a list is not enough if it is bonding *)
Definition ex_list (bonding : bool) : mann := mkMann (u "parts") (VMany [u "other words"; u "missing text"]) false bonding false [].
Example C74_ex_bonding :
  ex_tags (annotate_ex 20 [ex_list false] ex_lines) =
    Some [[(None, None); (None, None)]; [(None, None); (None, None)];
          [(Some (u "b-parts"), None); (Some (u "i-parts"), None)]; [(None, None); (None, None)]] /\
  ex_tags (annotate_ex 20 [ex_list true] ex_lines) =
    Some [[(None, None); (None, None)]; [(None, None); (None, None)]; [(None, None); (None, None)]; [(None, None); (None, None)]].
Proof. split; vm_compute; reflexivity. Qed.
Definition at_line (p : Z) : smatch := mkSm (mkSeqp [mkW (0, 0) (u "x") []] p) (0, 1)%Z.
Example C74_ex_distance : distance_between [at_line 4; at_line 2] [at_line 6; at_line 5] = 1%Z /\ adjacent [at_line 4; at_line 2] [at_line 6; at_line 5].
Proof. split; [reflexivity|]. apply C74_distance; [discriminate|discriminate|]. vm_compute. discriminate. Qed.
Example C74_ex_filter : valid (f_a ex_fm) (f_b ex_fm) (f_blocks ex_fm) /\ DEFAULT_SEQ_FILTER ex_fm None false = Ok true /\
  DEFAULT_SEQ_FILTER (mkF (u "abcdxxxxxx") (u "abcd") [(0, 0, 4)]%Z (default_isjunk ascii_alpha)) None false = Ok false /\
  DEFAULT_SEQ_FILTER (mkF (u "abcdxxxxxx") (u "abcd") [(0, 0, 4)]%Z (default_isjunk ascii_alpha)) None true = Ok true.
Proof. split; [apply C66_ex|]. repeat split; vm_compute; reflexivity. Qed.
Example C75_ex : exists d', apply_matches ascii_space ascii_alpha lower_ascii ex_blocks DEFAULT_SEQ_FILTER DEFAULT_CHOICE_FILTER DEFAULT_MAX_MATCH_GAP true
    (ex_body "x") [mkSm (mkSeqp [mkW (0, 0) (u "label") []; mkW (0, 1) (u "first") []] 0%Z) (6, 8)%Z;
                   mkSm (mkSeqp [mkW (1, 0) (u "about") []; mkW (1, 1) (u "things") []] 1%Z) (0, 5)%Z] ex_lines = Ok d' /\
  map (map tag) (firstn 2 d') = [[None; Some (u "b-title")]; [Some (u "i-title"); None]].
Proof. eexists. split; vm_compute; reflexivity. Qed.

Print Assumptions C74_filter.
Print Assumptions C74_defaults.
Print Assumptions C74_distance.
Print Assumptions C74_run.
Print Assumptions C75_marks.
