(** C54, C66: the complex matcher *)
From Coq Require Import Permutation Sorted.
From Verif Require Import Base ModelTags ProofTags ModelTokenize ModelTei ModelTeiDoc SpecTeiWrite SpecTeiDoc ProofTeiDoc PropTeiDoc
  ModelJoined PropJoined ModelExtend ModelClusters PropClusters ModelTarget ModelReference PropReferenceDoc ModelFuzzyMatch PropFuzzyMatch ModelWordMatch
  ModelSimpleMatch PropSimpleMatch ModelMatch.
Open Scope nat_scope.

(* ---------------------------------------------------------------- *)
(** ** Specification *)
Section Spec.
Variable blocks : str -> str -> res (list block).
Variable njstr_value : tvalue -> res tvalue.
Variable begin_prefix : bool.
(** the tag for a name *)
Definition names_tag (name : str) (v : ostr) : Prop :=
  if begin_prefix then name <> [] /\ (v = Some (u "b-" ++ name) \/ v = Some (u "i-" ++ name)) \/ name = [] /\ v = Some []
  else v = Some name.
Definition tagged_by (a : mann) (t t' : tok) : Prop :=
  names_tag (ma_name a) (tag t') /\ (sub t' = sub t \/ exists s, In s (ma_subs a) /\ names_tag (ms_name s) (sub t')).
(** words of one line without tag *)
Definition run_of (d : doc) (s : seqp) : Prop :=
  sq_words s <> [] /\ exists i, Forall (fun w => fst (w_tok w) = i /\ untagged d (w_tok w) = true) (sq_words s).
(** the text of the sequence alone or together with a neighbour *)
Definition part_of (s : seqp) (x : str) : Prop :=
  x = sq_text s \/ (exists y, x = sq_text s ++ u " " ++ y) \/ (exists y, x = y ++ u " " ++ sq_text s).
(** something of it was found in the (rest of the) text [s1] *)
Definition matched_with (s1 : str) (m : smatch) : Prop :=
  exists x l, part_of (sm_seq m) x /\ (blocks s1 x = Ok l \/ exists k, blocks x (py_from s1 k) = Ok l) /\
              exists b, In b l /\ b_n b <> 0%Z.
Definition value_list (v : tvalue) : list str := match v with VOne s => [s] | VMany l => l end.
Definition found_for (d : doc) (a : mann) (m : smatch) : Prop :=
  run_of d (sm_seq m) /\ exists v s1, njstr_value (ma_value a) = Ok v /\ In s1 (value_list v) /\ matched_with s1 m.
(** the document after annotation *)
Definition matched_only (targets : list mann) (d d' : doc) : Prop :=
  forall q, match tok_at d q with
            | None => tok_at d' q = None
            | Some t => exists t', tok_at d' q = Some t' /\ same_text t t' /\
                (tag t' = tag t /\ sub t' = sub t \/
                 truthy (tag t) = false /\ exists a m, In a targets /\ tagged_by a t t' /\ found_for d a m /\ In q (match_tokens m))
            end.
End Spec.

(* ---------------------------------------------------------------- *)
Section C54.
Variable sp alpha : N -> bool.
Variable lower : str -> str.
Variable blocks : str -> str -> res (list block).
Variable seq_filter choice_filter : fm_filter.
Variable max_gap : Z.
Variable begin_prefix : bool.
Notation tag_of := (tag_of begin_prefix).
Notation dj := (dj alpha).
Notation find_next := (find_next sp alpha blocks seq_filter choice_filter max_gap).
Notation find_list := (find_list sp alpha blocks seq_filter choice_filter max_gap).
Notation do_find := (do_find sp alpha blocks seq_filter choice_filter max_gap).
Notation apply_subs := (apply_subs sp alpha lower blocks seq_filter choice_filter max_gap begin_prefix).
Notation apply_sub := (apply_sub sp alpha lower blocks seq_filter choice_filter max_gap begin_prefix).
Notation apply_match := (apply_match sp alpha lower blocks seq_filter choice_filter max_gap begin_prefix).
Notation apply_matches := (apply_matches sp alpha lower blocks seq_filter choice_filter max_gap begin_prefix).
Notation apply_token := (apply_token sp begin_prefix).
Notation target_loop := (target_loop sp alpha lower blocks seq_filter choice_filter max_gap begin_prefix).
Notation target_step := (target_step sp alpha lower blocks seq_filter choice_filter max_gap begin_prefix).
Notation annotate := (matching_annotate sp alpha lower blocks seq_filter choice_filter max_gap begin_prefix).
Notation njv := (njstr_value alpha lower).
Notation names_tag := (names_tag begin_prefix).
Notation tagged_by := (tagged_by begin_prefix).
Notation matched_with := (matched_with blocks).
Notation found_for := (found_for blocks njv).
Notation matched_only := (matched_only blocks njv begin_prefix).

Lemma tag_of_names name b : names_tag name (tag_of name b).
Proof.
  unfold ModelMatch.tag_of, PropMatch.names_tag. destruct begin_prefix; [|destruct name; reflexivity].
  destruct name as [|x n]; [right; destruct b; auto|]. left. split; [discriminate|]. destruct b; [left|right]; reflexivity.
Qed.
Lemma names_truthy name v : name <> [] -> names_tag name v -> truthy v = true.
Proof.
  intros H. unfold PropMatch.names_tag. destruct begin_prefix.
  - intros [[_ [->| ->]]|[-> _]]; [reflexivity|reflexivity|congruence].
  - intros ->. destruct name; [congruence|reflexivity].
Qed.

(* ---------------------------------------------------------------- *)
(** *** Searching *)
Lemma in_sub_runs d s x : sq_words s <> [] -> In x (sub_sequences d s) ->
  sq_words x <> [] /\ incl (sq_words x) (sq_words s).
Proof.
  intros Hn H. unfold sub_sequences in H. apply in_map_iff in H as (q & <- & H). cbn [sq_words].
  set (tg := fun t : wtoken (nat * nat) => truthy (main_tag d (w_tok t))) in *.
  destruct (C14_all_untagged tg [sq_words s]) as [E F]; [repeat constructor; exact Hn|].
  unfold pending_sequences in E, F. cbn [flat_map concat] in E, F. rewrite app_nil_r in E, F. rewrite app_nil_r in E.
  rewrite Forall_forall in F. split; [apply F; exact H|]. intros w Hw.
  assert (X : In w (concat (untagged_sub_sequences tg (sq_words s)))) by (apply in_concat; eauto).
  rewrite E in X. now apply filter_In in X.
Qed.
Lemma sub_runs_count d s : sq_words s <> [] -> length (sub_sequences d s) <= length (sq_words s).
Proof.
  intros Hn. unfold sub_sequences. rewrite map_length.
  set (tg := fun t : wtoken (nat * nat) => truthy (main_tag d (w_tok t))).
  destruct (C14_all_untagged tg [sq_words s]) as [E F]; [repeat constructor; exact Hn|].
  unfold pending_sequences in E, F. cbn [flat_map concat] in E, F. rewrite app_nil_r in E, F. rewrite app_nil_r in E.
  assert (L : length (untagged_sub_sequences tg (sq_words s)) <= length (concat (untagged_sub_sequences tg (sq_words s)))).
  { clear E. induction F as [|x l Hx F IH]; [cbn; lia|]. cbn [concat length]. rewrite app_length. destruct x; [congruence|cbn in *; lia]. }
  rewrite E in L. etransitivity; [exact L|]. clear. induction (sq_words s) as [|x l IH]; cbn; [lia|]. destruct (negb (tg x)); cbn; lia.
Qed.
Lemma run_of_sub d0 d s x : run_of d0 s -> In x (sub_sequences d s) -> run_of d0 x.
Proof.
  intros [Hn (i & Hf)] H. destruct (in_sub_runs d s x Hn H) as [H1 H2]. split; [exact H1|]. exists i.
  rewrite Forall_forall in *. intros w Hw. apply Hf, H2, Hw.
Qed.

(** the finder only ever has sequences with [G] *)
Section Finder.
Variable G : seqp -> Prop.
Hypothesis G_words : forall s, G s -> sq_words s <> [].
Hypothesis G_sub : forall d s x, G s -> In x (sub_sequences d s) -> G x.
Definition gen_ok (g : gen) : Prop := Forall G (g_buffer g) /\ Forall G (g_rest g).
Definition finder_ok (f : finder) : Prop := Forall G (fi_log f) /\ gen_ok (fi_gen f) /\ fi_cur f < fi_next f.
Definition words_of (l : list seqp) : nat := list_sum (map (fun s => length (sq_words s)) l).
Lemma words_of_cons s l : words_of (s :: l) = length (sq_words s) + words_of l.
Proof. reflexivity. Qed.
Definition budget (f : finder) : nat := length (fi_log f) + length (g_buffer (fi_gen f)) + words_of (g_rest (fi_gen f)).

Lemma pull_rest_ok d l : Forall G l -> forall o g, pull_rest d l = (o, g) ->
  gen_ok g /\ match o with
              | Some x => G x /\ S (length (g_buffer g) + words_of (g_rest g)) <= words_of l
              | None => g = mkGen [] []
              end.
Proof.
  induction 1 as [|s l Hs Hl IH]; intros o g H; cbn [pull_rest] in H.
  - injection H as <- <-. repeat split; constructor.
  - pose proof (sub_runs_count d s (G_words s Hs)) as L. destruct (sub_sequences d s) as [|x r] eqn:E.
    + destruct (IH o g H) as [H1 H2]. split; [exact H1|]. destruct o; [|exact H2]. destruct H2 as [H2 H3]. split; [exact H2|].
      rewrite words_of_cons. lia.
    + injection H as <- <-. assert (F : Forall G (x :: r)).
      { apply Forall_forall. intros y Hy. apply (G_sub d s); [exact Hs|]. now rewrite E. }
      inversion F; subst. split; [split; cbn; assumption|]. split; [assumption|]. cbn [g_buffer g_rest].
      rewrite words_of_cons. cbn [length] in L. lia.
Qed.
Lemma pull_ok d g : gen_ok g -> forall o g', pull d g = (o, g') ->
  gen_ok g' /\ match o with
               | Some x => G x /\ S (length (g_buffer g') + words_of (g_rest g')) <= length (g_buffer g) + words_of (g_rest g)
               | None => g' = mkGen [] []
               end.
Proof.
  destruct g as [[|x l] rest]; intros [H1 H2] o g'; unfold pull; cbn [g_buffer g_rest] in *.
  - intros H. apply (pull_rest_ok d _ H2) in H. exact H.
  - intros [= <- <-]. inversion H1; subst. split; [split; cbn; assumption|]. split; [assumption|]. cbn [length g_buffer g_rest]. lia.
Qed.
Lemma fill_ok d n : forall log g, Forall G log -> gen_ok g ->
  let lg := fill d n log g in Forall G (fst lg) /\ gen_ok (snd lg) /\
    length (fst lg) + length (g_buffer (snd lg)) + words_of (g_rest (snd lg)) <= length log + length (g_buffer g) + words_of (g_rest g).
Proof.
  induction n as [|n IH]; intros log g H1 H2; cbn zeta; cbn [fill]; [cbn; auto|].
  destruct (pull d g) as [o g'] eqn:E. destruct (pull_ok d g H2 _ _ E) as [K1 K2]. destruct o as [x|].
  - destruct K2 as [K2 K3]. destruct (IH (log ++ [x]) g') as (I1 & I2 & I3); [apply Forall_app; auto|exact K1|].
    split; [exact I1|]. split; [exact I2|]. rewrite app_length in I3. cbn [length] in I3. lia.
  - subst g'. cbn. repeat split; auto; try constructor. lia.
Qed.
Lemma advance_ok d k m f : finder_ok f -> k <= m -> finder_ok (advance d k m f) /\ budget (advance d k m f) <= budget f.
Proof.
  intros (H1 & H2 & H3) Hk. unfold advance.
  destruct (fill_ok d (fi_next f + m - length (fi_log f)) (fi_log f) (fi_gen f) H1 H2) as (I1 & I2 & I3).
  unfold finder_ok, budget. cbn [fi_log fi_gen fi_cur fi_next]. repeat split; auto; try apply I2. lia.
Qed.
Lemma items_ok d f : finder_ok f -> Forall G (all_items d f) /\ length (all_items d f) <= budget f.
Proof.
  intros (H1 & [H2 H3] & _). unfold all_items, budget. split.
  - apply Forall_app. split; [exact H1|]. apply Forall_app. split; [exact H2|]. clear -H3 G_sub.
    induction H3 as [|s l Hs Hl IH]; cbn [flat_map]; [constructor|]. apply Forall_app. split; [|exact IH].
    apply Forall_forall. intros x. now apply G_sub.
  - rewrite !app_length, Nat.add_assoc. apply Nat.add_le_mono_l. clear -H3 G_words.
    induction H3 as [|s l Hs Hl IH]; cbn [flat_map]; [cbn; lia|]. rewrite app_length. rewrite words_of_cons.
    pose proof (sub_runs_count d s (G_words s Hs)). lia.
Qed.
Definition good_pair (p : option seqp * option seqp) : Prop :=
  match p with (Some x, Some y) => G x /\ G y | (Some x, None) => G x | (None, _) => False end.
Lemma zip_ok (a : list seqp) : forall b, length b <= length a -> Forall G a -> Forall G b -> Forall good_pair (zip_longest a b).
Proof.
  induction a as [|x a IH]; intros [|y b] Hl Ha Hb; cbn [zip_longest]; [constructor|cbn in Hl; lia| |]; inversion Ha; subst.
  - constructor; [assumption|]. apply IH; auto. cbn. lia.
  - inversion Hb; subst. constructor; [split; assumption|]. apply IH; auto. cbn in Hl. lia.
Qed.
Lemma zip_length (a : list seqp) : forall b, length b <= length a -> length (zip_longest a b) = length a.
Proof.
  induction a as [|x a IH]; intros [|y b] Hl; cbn [zip_longest length] in *; [reflexivity|lia| |]; f_equal; apply IH; cbn; lia.
Qed.
Lemma Forall_skipn {A} (P : A -> Prop) n l : Forall P l -> Forall P (skipn n l).
Proof. revert l. induction n as [|n IH]; intros [|x l] H; cbn; auto. inversion H; auto. Qed.
Lemma pairs_ok d f : finder_ok f -> Forall good_pair (pairs d f) /\ fi_cur f + length (pairs d f) <= Nat.max (fi_cur f) (budget f).
Proof.
  intros H. destruct (items_ok d f H) as [H1 H2]. destruct H as (_ & _ & H3). unfold pairs. split.
  - apply zip_ok; [rewrite !skipn_length; lia|now apply Forall_skipn|now apply Forall_skipn].
  - rewrite zip_length by (rewrite !skipn_length; lia). rewrite skipn_length. lia.
Qed.
End Finder.

(** what a step finds *)
Lemma has_match_blocks fm : has_match fm = true -> exists b, In b (f_blocks fm) /\ b_n b <> 0%Z.
Proof.
  unfold has_match. destruct (non_empty fm) as [|b l] eqn:E; [discriminate|]. intros _. exists b.
  assert (H : In b (non_empty fm)) by (rewrite E; now left). unfold non_empty in H. apply filter_In in H as [H H'].
  split; [exact H|]. apply negb_true_iff, Z.eqb_neq in H'. exact H'.
Qed.
Lemma split_b_match fmc i : (has_match (fst (b_split_at dj fmc i)) = true \/ has_match (snd (b_split_at dj fmc i)) = true) ->
  exists b, In b (f_blocks fmc) /\ b_n b <> 0%Z.
Proof.
  intros H. assert (N : exists b, In b (non_empty fmc)).
  { unfold b_split_at in H. destruct (non_empty fmc) as [|b l]; [cbn in H; destruct H; discriminate|]. exists b. now left. }
  destruct N as [b N]. exists b. unfold non_empty in N. apply filter_In in N as [N N']. apply negb_true_iff, Z.eqb_neq in N'. auto.
Qed.
Lemma split_a_match fmc i : (has_match (fst (a_split_at dj fmc i)) = true \/ has_match (snd (a_split_at dj fmc i)) = true) ->
  exists b, In b (f_blocks fmc) /\ b_n b <> 0%Z.
Proof.
  intros H. assert (N : exists b, In b (non_empty fmc)).
  { unfold a_split_at in H. destruct (non_empty fmc) as [|b l]; [cbn in H; destruct H; discriminate|]. exists b. now left. }
  destruct N as [b N]. exists b. unfold non_empty in N. apply filter_In in N as [N N']. apply negb_true_iff, Z.eqb_neq in N'. auto.
Qed.
Lemma part_first choice next : part_of choice (combined (sq_text choice) next).
Proof. unfold combined, part_of. destruct next; eauto. Qed.
Lemma part_next choice n : part_of n (combined (sq_text choice) (Some n)).
Proof. unfold combined, part_of. eauto. Qed.

Lemma next_match_in next fm range ms : next_match next fm range = Ok ms ->
  Forall (fun m => next = Some (sm_seq m) /\ has_match fm = true) ms.
Proof.
  unfold next_match. destruct (has_match fm) eqn:E; [|intros [= <-]; constructor].
  destruct next as [n|]; [|discriminate]. intros [= <-]. repeat constructor.
Qed.
Lemma regular_found s1 choice next matched start prev s :
  regular_step sp alpha blocks seq_filter s1 choice next matched start prev = Ok s ->
  Forall (fun m => (sm_seq m = choice \/ next = Some (sm_seq m)) /\ matched_with s1 m) (sp_matches s).
Proof.
  unfold regular_step, fuzzy_match. destruct (blocks s1 _) as [l|] eqn:Eb; [|discriminate]. cbn [bind].
  set (fmc := mkF s1 (combined (sq_text choice) next) l dj).
  pose proof (split_b_match fmc (slen (sq_text choice))) as Sb.
  destruct (b_split_at dj fmc (slen (sq_text choice))) as [fm fmn]. cbn [fst snd] in Sb.
  destruct (has_match fm) eqn:Eh; cbn [bind]; [|intros [= <-]; constructor].
  match goal with |- bind ?x _ = _ -> _ => destruct x as [acc|]; [|discriminate] end. cbn [bind].
  destruct acc; [|intros [= <-]; constructor].
  destruct (next_match next fmn b_index_range) as [nm|] eqn:En; [|discriminate]. cbn [bind]. intros [= <-]. cbn [sp_matches].
  constructor.
  - split; [now left|]. exists (combined (sq_text choice) next), l. split; [apply part_first|]. split; [now left|]. apply Sb. now left.
  - eapply Forall_impl; [|apply (next_match_in _ _ _ _ En)]. intros m [-> Hm]. split; [now right|].
    exists (combined (sq_text choice) (Some (sm_seq m))), l. split; [apply part_next|]. split; [now left|]. apply Sb. now right.
Qed.
Lemma short_found s1 choice next matched start prev s :
  short_step alpha blocks choice_filter s1 choice next matched start prev = Ok s ->
  Forall (fun m => (sm_seq m = choice \/ next = Some (sm_seq m)) /\ matched_with s1 m) (sp_matches s).
Proof.
  unfold short_step, fuzzy_match. destruct (blocks _ (py_from s1 start)) as [l|] eqn:Eb; [|discriminate]. cbn [bind].
  set (fmc := mkF (combined (sq_text choice) next) (py_from s1 start) l dj).
  pose proof (split_a_match fmc (slen (sq_text choice))) as Sb.
  destruct (a_split_at dj fmc (slen (sq_text choice))) as [fm fmn]. cbn [fst snd] in Sb.
  destruct (has_match fm) eqn:Eh; cbn [bind]; [|intros [= <-]; constructor].
  match goal with |- bind ?x _ = _ -> _ => destruct x as [acc|]; [|discriminate] end. cbn [bind].
  destruct acc; [|intros [= <-]; constructor].
  destruct (next_match next fmn a_index_range) as [nm|] eqn:En; [|discriminate]. cbn [bind]. intros [= <-]. cbn [sp_matches].
  constructor.
  - split; [now left|]. exists (combined (sq_text choice) next), l. split; [apply part_first|]. split; [right; eauto|]. apply Sb. now left.
  - eapply Forall_impl; [|apply (next_match_in _ _ _ _ En)]. intros m [-> Hm]. split; [now right|].
    exists (combined (sq_text choice) (Some (sm_seq m))), l. split; [apply part_next|]. split; [right; eauto|]. apply Sb. now right.
Qed.
Lemma do_find_found G is_sub s1 l : Forall (good_pair G) l -> forall matched start prev ms mt k,
  do_find is_sub s1 l matched start prev = Ok (ms, mt, k) ->
  Forall (fun m => G (sm_seq m) /\ matched_with s1 m) ms /\ k <= length l /\ (l <> [] -> 1 <= k) /\ (l = [] -> ms = []).
Proof.
  induction 1 as [|[[choice|] next] l Hp Hl IH]; intros matched start prev ms mt k H; cbn [ModelMatch.do_find] in H.
  - injection H as <- <- <-. split; [apply Forall_nil|]. split; [cbn; lia|]. split; [congruence|reflexivity].
  - destruct (negb (is_close_to_any _ _ _)).
    { destruct (do_find is_sub s1 l matched start prev) as [[[ms' mt'] k']|] eqn:E; [|discriminate]. cbn [bind] in H.
      injection H as <- <- <-. destruct (IH _ _ _ _ _ _ E) as (I1 & I2 & _). repeat split; [exact I1|cbn; lia|lia|discriminate]. }
    destruct (negb (nonempty _)); [injection H as <- <- <-; split; [apply Forall_nil|]; split; [cbn; lia|]; split; [lia|discriminate]|].
    destruct (if is_sub || _ then _ else _) as [s|] eqn:Es; [|discriminate]. cbn [bind] in H.
    assert (F : Forall (fun m => G (sm_seq m) /\ matched_with s1 m) (sp_matches s)).
    { assert (F : Forall (fun m => (sm_seq m = choice \/ next = Some (sm_seq m)) /\ matched_with s1 m) (sp_matches s)).
      { destruct (is_sub || _); [eapply short_found|eapply regular_found]; exact Es. }
      eapply Forall_impl; [|exact F]. intros m [[E|E] Hm]; (split; [|exact Hm]).
      - subst choice. cbn in Hp. destruct next; tauto.
      - subst next. cbn in Hp. tauto. }
    destruct (sp_last s).
    { injection H as <- <- <-. repeat split; [exact F|cbn; lia|lia|discriminate]. }
    destruct (do_find is_sub s1 l _ _ _) as [[[ms' mt'] k']|] eqn:E; [|discriminate]. cbn [bind] in H.
    injection H as <- <- <-. destruct (IH _ _ _ _ _ _ E) as (I1 & I2 & _).
    repeat split; [apply Forall_app; auto|cbn; lia|lia|discriminate].
  - discriminate.
Qed.
Lemma find_list_found G is_sub l values : Forall (good_pair G) l -> forall matched ms mt ks,
  find_list is_sub l values matched = Ok (ms, mt, ks) ->
  Forall (fun m => G (sm_seq m) /\ exists s1, In s1 values /\ matched_with s1 m) ms /\ list_max ks <= length l /\
  (l <> [] -> values <> [] -> 1 <= hd 0 ks) /\ (l = [] \/ values = [] -> ms = []).
Proof.
  intros Hl. induction values as [|s values IH]; intros matched ms mt ks H; cbn [ModelMatch.find_list] in H.
  - injection H as <- <- <-. split; [apply Forall_nil|]. split; [cbn; lia|]. split; [congruence|reflexivity].
  - destruct (do_find is_sub s l matched 0 false) as [[[ms1 mt1] k1]|] eqn:E1; [|discriminate]. cbn [bind] in H.
    destruct (find_list is_sub l values mt1) as [[[ms2 mt2] ks2]|] eqn:E2; [|discriminate]. cbn [bind] in H. injection H as <- <- <-.
    destruct (do_find_found G is_sub s l Hl _ _ _ _ _ _ E1) as (A1 & A2 & A3 & A4).
    destruct (IH _ _ _ _ E2) as (B1 & B2 & _ & B4).
    split; [|split; [|split]].
    + apply Forall_app. split.
      * eapply Forall_impl; [|exact A1]. intros m [? ?]. split; [assumption|]. exists s. split; [now left|assumption].
      * eapply Forall_impl; [|exact B1]. intros m [? (x & ? & ?)]. split; [assumption|]. exists x. split; [now right|assumption].
    + cbn [list_max fold_right]. change (fold_right Nat.max 0 ks2) with (list_max ks2). lia.
    + intros H _. cbn. auto.
    + intros [H|H]; [|discriminate]. rewrite A4, B4 by auto. reflexivity.
Qed.
Lemma hd_max ks : hd 0 ks <= list_max ks.
Proof. destruct ks; cbn; lia. Qed.
Lemma find_next_found (G : seqp -> Prop) (G_words : forall s, G s -> sq_words s <> []) (G_sub : forall d s x, G s -> In x (sub_sequences d s) -> G x)
    is_sub name bonding value d f matched ms mt f' : finder_ok G f ->
  find_next is_sub name bonding value d f matched = Ok (ms, mt, f') ->
  Forall (fun m => G (sm_seq m) /\ exists s1, In s1 (value_list value) /\ matched_with s1 m) ms /\
  finder_ok G f' /\ budget f' <= budget f /\ (ms <> [] -> fi_cur f < fi_cur f' <= budget f).
Proof.
  intros Hf H. destruct (pairs_ok G G_words G_sub d f Hf) as [P1 P2]. unfold ModelMatch.find_next in H. destruct value as [s|values].
  - destruct (do_find is_sub s _ matched 0 false) as [[[ms1 mt1] k1]|] eqn:E1; [|discriminate]. cbn [bind] in H. injection H as <- <- <-.
    destruct (do_find_found G is_sub s _ P1 _ _ _ _ _ _ E1) as (A1 & A2 & A3 & A4).
    destruct (advance_ok G G_words G_sub d k1 k1 f Hf (Nat.le_refl _)) as [B1 B2]. split; [|split; [exact B1|split; [exact B2|]]].
    + eapply Forall_impl; [|exact A1]. intros m [? ?]. split; [assumption|]. exists s. split; [now left|assumption].
    + intros Hm. assert (Hp : pairs d f <> []) by (intros E; apply Hm; auto). specialize (A3 Hp). cbn [advance fi_cur]. lia.
  - destruct (find_list is_sub _ values matched) as [[[ms1 mt1] ks]|] eqn:E1; [|discriminate]. cbn [bind] in H. injection H as <- <- <-.
    destruct (find_list_found G is_sub _ values P1 _ _ _ _ E1) as (A1 & A2 & A3 & A4).
    destruct (advance_ok G G_words G_sub d (hd 0 ks) (list_max ks) f Hf (hd_max ks)) as [B1 B2].
    split; [|split; [exact B1|split; [exact B2|]]].
    + destruct (_ || _); [exact A1|constructor].
    + intros Hm. assert (Hm' : ms1 <> []) by (destruct (_ || _); [exact Hm|congruence]).
      assert (Hp : pairs d f <> []) by (intros E; apply Hm'; auto). assert (Hv : values <> []) by (intros E; apply Hm'; auto).
      specialize (A3 Hp Hv). pose proof (hd_max ks). cbn [advance fi_cur]. lia.
Qed.

(* ---------------------------------------------------------------- *)
(** *** Tagging *)
(** while the matches of [a] are applied to [d0]: the tokens of [all] are tagged *)
Definition during (a : mann) (allowed : list (nat * nat)) (d0 : doc) (st : doc * bool * list (nat * nat)) : Prop :=
  let '(d, _, all) := st in
  incl all allowed /\
  forall q, match tok_at d0 q with
            | None => tok_at d q = None
            | Some t => exists t', tok_at d q = Some t' /\ same_text t t' /\
                (~ In q all /\ tag t' = tag t /\ sub t' = sub t \/ In q all /\ truthy (tag t) = false /\ tagged_by a t t')
            end.
Lemma pos_dec (p q : nat * nat) : {p = q} + {p <> q}.
Proof. decide equality; apply Nat.eq_dec. Qed.
Lemma token_during a allowed d0 st p : ma_name a <> [] -> In p allowed -> during a allowed d0 st -> during a allowed d0 (apply_token (ma_name a) st p).
Proof.
  destruct st as [[d first] all]. intros Hn Hp [H1 H2]. unfold ModelMatch.apply_token. destruct (truthy (main_tag d p)) eqn:Et; [split; assumption|].
  split. { intros x Hx. apply in_app_or in Hx as [Hx|[<-|[]]]; [now apply H1|exact Hp]. }
  intros q. specialize (H2 q). destruct (tok_at d0 q) as [t|] eqn:E0; [|now apply tok_at_set_none].
  destruct H2 as (t1 & E1 & S1 & K). destruct (set_any sp LMain p (tag_of (ma_name a) first) d q t1 E1) as (t2 & E2 & S2 & Gv & _).
  exists t2. split; [exact E2|]. split; [eapply same_text_trans; eassumption|].
  pose proof (Gv LMain) as G1. pose proof (Gv LSub) as G2. cbn in G1, G2.
  destruct (Nat.eqb (fst p) (fst q) && Nat.eqb (snd p) (snd q)) eqn:Ep.
  - apply pos_eqb in Ep. subst q. unfold main_tag in Et. rewrite at_pos_eq, E1 in Et.
    destruct K as [(K1 & K2 & K3)|(K1 & K2 & K3 & _)].
    + right. split; [apply in_or_app; right; now left|]. split; [congruence|]. split; [rewrite G1; apply tag_of_names|left; congruence].
    + apply names_truthy in K3; [congruence|exact Hn].
  - assert (Hq : p <> q) by (intros <-; rewrite (proj2 (pos_eqb p p)) in Ep by reflexivity; discriminate).
    destruct K as [(K1 & K2 & K3)|(K1 & K2 & K3 & K4)].
    + left. split; [|split; congruence]. intros Hx. apply in_app_or in Hx as [Hx|[Hx|[]]]; auto.
    + right. split; [apply in_or_app; now left|]. split; [exact K2|]. unfold PropMatch.tagged_by. rewrite G1, G2. auto.
Qed.
Lemma tokens_during a allowed d0 ps : ma_name a <> [] -> incl ps allowed -> forall st, during a allowed d0 st ->
  during a allowed d0 (fold_left (apply_token (ma_name a)) ps st).
Proof.
  intros Hn. induction ps as [|p ps IH]; intros Hi st H; [exact H|]. cbn [fold_left]. apply IH; [intros x Hx; apply Hi; now right|].
  apply token_during; auto. apply Hi. now left.
Qed.
Lemma core_tokens_incl {A} (q : seqw A) r : incl (core_tokens_between q r) (map w_tok q).
Proof.
  unfold core_tokens_between. generalize 0%Z as i. induction q as [|t q IH]; intros i x Hx; cbn [core_tokens_go] in Hx; [contradiction|].
  destruct (i >=? snd r)%Z; [contradiction|]. cbn zeta in Hx. destruct (_ >? _)%Z.
  - destruct Hx as [<-|Hx]; [now left|]. right. eapply IH. exact Hx.
  - right. eapply IH. exact Hx.
Qed.
Lemma wrap_toks f d ps : incl (map w_tok (wrap sp f d ps)) ps.
Proof.
  induction ps as [|p ps IH]; [easy|]. cbn [wrap flat_map]. intros x Hx. rewrite map_app in Hx. apply in_app_or in Hx as [Hx|Hx].
  - destruct (at_pos d p); [|contradiction]. destruct Hx as [<-|[]]. now left.
  - right. now apply IH.
Qed.
Lemma sub_set_during a allowed d0 d first all p s b : In p all -> In s (ma_subs a) -> during a allowed d0 (d, first, all) ->
  during a allowed d0 (set_tag sp LSub p (tag_of (ms_name s) b) d, first, all).
Proof.
  intros Hp Hs [H1 H2]. split; [exact H1|]. intros q. specialize (H2 q). destruct (tok_at d0 q) as [t|]; [|now apply tok_at_set_none].
  destruct H2 as (t1 & E1 & S1 & K). destruct (set_any sp LSub p (tag_of (ms_name s) b) d q t1 E1) as (t2 & E2 & S2 & Gv & _).
  exists t2. split; [exact E2|]. split; [eapply same_text_trans; eassumption|].
  pose proof (Gv LMain) as G1. pose proof (Gv LSub) as G2. cbn in G1, G2.
  destruct (Nat.eqb (fst p) (fst q) && Nat.eqb (snd p) (snd q)) eqn:Ep.
  - apply pos_eqb in Ep. subst q. destruct K as [(K1 & _)|(K1 & K2 & K3 & K4)]; [contradiction|].
    right. split; [exact K1|]. split; [exact K2|]. split; [now rewrite G1|]. right. exists s. split; [exact Hs|]. rewrite G2. apply tag_of_names.
  - destruct K as [(K1 & K2 & K3)|(K1 & K2 & K3 & K4)]; [left|right].
    + repeat split; congruence.
    + split; [exact K1|]. split; [exact K2|]. unfold PropMatch.tagged_by. rewrite G1, G2. auto.
Qed.
(** sub annotations are searched in one sequence only *)
Lemma sub_matches s name bonding value d matched ms mt f' : sq_words s <> [] ->
  find_next true name bonding value d (new_finder (mkGen [s] [])) matched = Ok (ms, mt, f') ->
  Forall (fun m => incl (match_tokens m) (map w_tok (sq_words s))) ms.
Proof.
  intros Hw H. edestruct (find_next_found (fun x => sq_words x <> [] /\ incl (sq_words x) (sq_words s))) as (A & _); [| | |exact H|].
  - tauto.
  - intros d1 x y [X1 X2] Hy. destruct (in_sub_runs d1 x y X1 Hy). split; [assumption|eapply incl_tran; eassumption].
  - split; [constructor|]. split; [|cbn; lia]. split; [repeat constructor; [exact Hw|apply incl_refl]|constructor].
  - eapply Forall_impl; [|exact A]. intros m [[_ Hi] _] x Hx. unfold match_tokens in Hx. apply core_tokens_incl in Hx.
    apply in_map_iff in Hx as (w & <- & Hx). apply in_map. now apply Hi.
Qed.
Lemma sub_matches_empty s name bonding value d matched ms mt f' : sq_words s = [] ->
  find_next true name bonding value d (new_finder (mkGen [s] [])) matched = Ok (ms, mt, f') -> ms = [].
Proof.
  intros Hw H. assert (D : forall s1 matched start prev, exists mt k, do_find true s1 [(Some s, None)] matched start prev = Ok ([], mt, k)).
  { intros. cbn [ModelMatch.do_find]. destruct (negb (is_close_to_any _ _ _)); cbn [bind]; [eauto|].
    unfold sq_text. rewrite Hw. cbn. eauto. }
  change (pairs d (new_finder (mkGen [s] []))) with [(Some s, @None seqp)] in H.
  assert (Ep : pairs d (new_finder (mkGen [s] [])) = [(Some s, None)]) by reflexivity.
  unfold ModelMatch.find_next in H. destruct value as [v|l]; rewrite Ep in H.
  - destruct (D v matched 0%Z false) as (mt' & k & E). rewrite E in H. cbn [bind] in H. injection H as <- <- <-. reflexivity.
  - assert (L : forall l matched, exists mt ks, find_list true [(Some s, None)] l matched = Ok ([], mt, ks)).
    { induction l0 as [|v l0 IH]; intros matched0; cbn [ModelMatch.find_list]; [eauto|].
      destruct (D v matched0 0%Z false) as (mt' & k & E). rewrite E. cbn [bind]. destruct (IH mt') as (mt2 & ks & E2). rewrite E2. cbn. eauto. }
    destruct (L l matched) as (mt' & ks & E). rewrite E in H. cbn [bind] in H. injection H as <- <- <-. destruct (_ || _); reflexivity.
Qed.
Lemma subs_during a allowed d0 d first all d' : during a allowed d0 (d, first, all) ->
  apply_subs (ma_subs a) all d = Ok d' -> during a allowed d0 (d', first, all).
Proof.
  intros H. unfold ModelMatch.apply_subs. set (s := sub_sequence sp lower d all).
  assert (Hs : incl (map w_tok (sq_words s)) all) by apply wrap_toks. clearbody s.
  destruct (foldM _ _ _) as [[d1 mt1]|] eqn:E; [|discriminate]. cbn [bind fst]. intros [= <-].
  assert (X : (fun st : doc * list Z => during a allowed d0 (fst st, first, all)) (d1, mt1)); [|exact X].
  eapply (foldM_inv (fun st : doc * list Z => during a allowed d0 (fst st, first, all))); [| |exact E]; [|exact H].
  intros [b mb] sa [b' mb'] Hin Hb Hstep. cbn [fst] in *. unfold ModelMatch.apply_sub in Hstep. cbn [fst snd] in Hstep.
  destruct (find_next true _ _ _ b _ mb) as [[[ms mt] f']|] eqn:Ef; [|discriminate]. cbn [bind] in Hstep. injection Hstep as <- <-.
  assert (F : Forall (fun m => incl (match_tokens m) all) ms).
  { destruct (sq_words s) eqn:Ew; [rewrite (sub_matches_empty s _ _ _ _ _ _ _ _ Ew Ef); constructor|].
    eapply Forall_impl; [|eapply sub_matches; [|exact Ef]; congruence]. intros m Hm. cbn beta in Hm. rewrite Ew in Hm. eapply incl_tran; eassumption. }
  assert (F' : forall x, In x (firsts (flat_map match_tokens ms)) -> In (fst x) all).
  { intros x Hx. apply firsts_in, in_flat_map in Hx as (m & Hm & Hx). rewrite Forall_forall in F. now apply (F m Hm). }
  apply (fold_inv (fun x => during a allowed d0 (x, first, all))); [|exact Hb].
  intros y x Hx Hy. apply sub_set_during; auto.
Qed.
Lemma matches_during a d0 ms d' : ma_name a <> [] -> apply_matches a ms d0 = Ok d' ->
  exists first all, during a (flat_map match_tokens ms) d0 (d', first, all).
Proof.
  intros Hn. unfold ModelMatch.apply_matches. destruct (foldM _ _ _) as [[[d1 f1] all1]|] eqn:E; [|discriminate]. cbn [bind fst]. intros [= <-].
  exists f1, all1. eapply (foldM_inv (during a (flat_map match_tokens ms) d0)); [| |exact E].
  - intros st m st' Hin Hst Hm. unfold ModelMatch.apply_match in Hm.
    assert (Hi : incl (match_tokens m) (flat_map match_tokens ms)) by (intros x Hx; apply in_flat_map; eauto).
    pose proof (tokens_during a _ d0 (match_tokens m) Hn Hi st Hst) as Ht.
    destruct (fold_left _ (match_tokens m) st) as [[d2 f2] all2].
    destruct (ma_subs a) as [|s0 subs] eqn:Es; [injection Hm as <-; exact Ht|]. rewrite <- Es in Hm.
    destruct (apply_subs (ma_subs a) all2 d2) as [d3|] eqn:E3; [|discriminate]. cbn [bind] in Hm. injection Hm as <-.
    eapply subs_during; eassumption.
  - split; [easy|]. intros q. destruct (tok_at d0 q) as [t|]; [|reflexivity]. exists t. repeat split; auto.
Qed.

(* ---------------------------------------------------------------- *)
(** *** The annotator *)
Lemma matched_only_step targets a ms d0 d d' : Forall (fun a => ma_name a <> []) targets -> In a targets ->
  matched_only targets d0 d -> Forall (found_for d0 a) ms -> apply_matches a ms d = Ok d' -> matched_only targets d0 d'.
Proof.
  intros Hn Ha H Hms E. assert (Hna : ma_name a <> []) by (rewrite Forall_forall in Hn; auto).
  destruct (matches_during a d ms d' Hna E) as (first & all & Hi & K). intros q. specialize (H q). specialize (K q).
  destruct (tok_at d0 q) as [t|]; [|rewrite H in K; exact K].
  destruct H as (t1 & E1 & S1 & H). rewrite E1 in K. destruct K as (t2 & E2 & S2 & K). exists t2. split; [exact E2|].
  split; [eapply same_text_trans; eassumption|]. destruct H as [[H1 H2]|(H1 & b & m & H2 & [H3 H4] & H5 & H6)].
  - destruct K as [(K1 & K2 & K3)|(K1 & K2 & K3 & K4)]; [left; split; congruence|]. right. split; [congruence|].
    apply Hi, in_flat_map in K1 as (m & Hm & Hq). exists a, m. split; [exact Ha|]. split; [|split; [|exact Hq]].
    + split; [exact K3|]. destruct K4 as [K4|K4]; [left; congruence|now right].
    + rewrite Forall_forall in Hms. auto.
  - assert (T : truthy (tag t1) = true) by (eapply names_truthy; [|exact H3]; rewrite Forall_forall in Hn; auto).
    destruct K as [(K1 & K2 & K3)|(K1 & K2 & K3)]; [|congruence]. right. split; [exact H1|]. exists b, m. split; [exact H2|].
    split; [|auto]. split; [now rewrite K2|now rewrite K3].
Qed.
Lemma matched_only_refl targets d : matched_only targets d d.
Proof. intros q. destruct (tok_at d q) as [t|]; [|reflexivity]. exists t. repeat split; auto. Qed.
Definition cond_ok (targets : list mann) (d0 : doc) (cm : option (mann * list smatch)) : Prop :=
  match cm with Some (a, ms) => In a targets /\ Forall (found_for d0 a) ms | None => True end.
Lemma Forall_perm {A} (P : A -> Prop) l l' : Permutation l l' -> Forall P l -> Forall P l'.
Proof. intros H F. rewrite Forall_forall in *. intros x Hx. apply F. eapply Permutation_in; [apply Permutation_sym; exact H|exact Hx]. Qed.
Lemma sorted_forall (P : smatch -> Prop) l : Forall P l -> Forall P (sorted_matches l).
Proof. apply Forall_perm. unfold sorted_matches. apply Permutation_sym, sort_perm. Qed.
Lemma loop_matched targets a value d0 fuel : Forall (fun a => ma_name a <> []) targets -> In a targets -> njv (ma_value a) = Ok value ->
  forall d cm f matched d' cm' mt, matched_only targets d0 d -> cond_ok targets d0 cm -> finder_ok (run_of d0) f ->
  target_loop fuel a value d cm f matched = Ok (d', cm', mt) -> matched_only targets d0 d' /\ cond_ok targets d0 cm'.
Proof.
  intros Hn Ha Hv. induction fuel as [|fuel IH]; intros d cm f matched d' cm' mt Hd Hc Hf H; [discriminate|].
  cbn [ModelMatch.target_loop] in H.
  destruct (find_next false _ _ value d f matched) as [[[found mt1] f1]|] eqn:Ef; [|discriminate]. cbn [bind] in H.
  edestruct (find_next_found (run_of d0)) as (A1 & A2 & A3 & _); [now intros s []|intros x s y; apply run_of_sub|exact Hf|exact Ef|].
  assert (F : Forall (found_for d0 a) (sorted_matches found)).
  { apply sorted_forall. eapply Forall_impl; [|exact A1]. intros m [? (s1 & ? & ?)]. split; [assumption|]. exists value, s1. auto. }
  destruct (sorted_matches found) as [|m0 ms0]; [injection H as <- <- <-; split; [exact Hd|exact I]|].
  destruct (match cm with Some _ => _ | None => _ end) as [d1|] eqn:E1; [|discriminate]. cbn [bind] in H.
  assert (Hd1 : matched_only targets d0 d1).
  { destruct cm as [[ca cms]|]; [|injection E1 as <-; exact Hd]. destruct Hc as [C1 C2].
    destruct (_ <=? _)%Z; [|injection E1 as <-; exact Hd]. exact (matched_only_step targets ca cms d0 d d1 Hn C1 Hd C2 E1). }
  destruct (if ma_next a then _ else _) as [[d2 cm2]|] eqn:E2; [|discriminate]. cbn [bind] in H.
  assert (H2 : matched_only targets d0 d2 /\ cond_ok targets d0 cm2).
  { destruct (ma_next a); [injection E2 as <- <-; split; [exact Hd1|split; assumption]|].
    destruct (apply_matches a (m0 :: ms0) d1) as [d3|] eqn:E3; [|discriminate]. cbn [bind] in E2. injection E2 as <- <-.
    split; [|exact Hc]. exact (matched_only_step targets a _ d0 d1 d3 Hn Ha Hd1 F E3). }
  destruct H2 as [H2 H3]. destruct (ma_multiple a); [|injection H as <- <- <-; auto].
  exact (IH d2 cm2 f1 mt1 d' cm' mt H2 H3 A2 H).
Qed.
(** the sequences of the document *)
Lemma mapM_Forall2 {A B} (f : A -> res B) l : forall r, mapM f l = Ok r -> Forall2 (fun x y => f x = Ok y) l r.
Proof.
  induction l as [|x l IH]; intros r H; cbn [mapM] in H; [injection H as <-; constructor|].
  destruct (f x) as [y|] eqn:E; [|discriminate]. cbn [bind] in H. destruct (mapM f l) as [r'|]; [|discriminate]. cbn [bind] in H.
  injection H as <-. constructor; auto.
Qed.
Lemma in_initial d ps : In ps (initial_sequences sp d) ->
  ps <> [] /\ exists i, Forall (fun p => fst p = i /\ untagged d p = true /\ tok_at d p <> None) ps.
Proof.
  unfold initial_sequences. intros H. apply filter_In in H as [H Hn]. split; [destruct ps; [discriminate|discriminate]|].
  apply in_map_iff in H as (ws & <- & H). apply In_nth_error in H as [k H].
  destruct (line_words_spec sp d 0 k ws H) as (_ & F & l & El & Ew). exists k. apply Forall_forall. intros p Hp. apply filter_In in Hp as [Hp Hu].
  rewrite Forall_forall in F. pose proof (F p Hp) as Fp. cbn beta in Fp. split; [exact Fp|]. split; [exact Hu|].
  rewrite Ew in Hp. apply word_indices_spec in Hp as (m & t & -> & Hm & _). unfold tok_at. cbn [fst snd Nat.add] in *. rewrite El, Hm. discriminate.
Qed.
Lemma wrap_junk_toks d ps q : wrap_junk sp alpha lower d ps = Ok q -> Forall (fun p => tok_at d p <> None) ps -> map w_tok q = ps.
Proof.
  unfold wrap_junk. intros H F. apply mapM_Forall2 in H.
  assert (E : map w_tok (wrap sp (fun s => s) d ps) = ps).
  { clear H. induction F as [|p ps Hp F IH]; [reflexivity|]. cbn [wrap flat_map]. rewrite at_pos_eq. destruct (tok_at d p); [|congruence].
    rewrite map_app. cbn [map app w_tok]. f_equal. exact IH. }
  rewrite <- E. clear E F. induction H as [|x y l r Hxy H IH]; [reflexivity|]. cbn [map]. f_equal; [|exact IH].
  destruct (njstr _ _ _); [|discriminate]. cbn [bind] in Hxy. injection Hxy as <-. reflexivity.
Qed.
Lemma sequences_run d seqs : sequences sp alpha lower d = Ok seqs -> Forall (run_of d) seqs.
Proof.
  unfold sequences. destruct (mapM _ _) as [l|] eqn:E; [|discriminate]. cbn [bind]. intros [= <-]. apply mapM_Forall2 in E.
  assert (F : Forall (fun q => q <> [] /\ exists i, Forall (fun w : wtoken (nat * nat) => fst (w_tok w) = i /\ untagged d (w_tok w) = true) q) l).
  { assert (I : forall ps, In ps (initial_sequences sp d) -> ps <> [] /\ exists i, Forall (fun p => fst p = i /\ untagged d p = true /\ tok_at d p <> None) ps)
      by apply in_initial.
    induction E as [|ps q lp lq Hpq E IH]; [constructor|]. constructor; [|apply IH; intros x Hx; apply I; now right].
    destruct (I ps (or_introl eq_refl)) as [I1 (i & I2)].
    assert (M : map w_tok q = ps) by (eapply wrap_junk_toks; [exact Hpq|]; eapply Forall_impl; [|exact I2]; cbn beta; intros ? Hx; apply Hx).
    split; [intros ->; cbn in M; congruence|]. exists i. rewrite <- M in I2. rewrite Forall_map in I2. eapply Forall_impl; [|exact I2]. cbn beta. intros ? (X1 & X2 & _). auto. }
  clear E. generalize 0%Z as i. induction F as [|q l Hq F IH]; intros i; cbn [with_positions]; [constructor|]. constructor; [exact Hq|apply IH].
Qed.

(** For every token: text as before; tag and sub tag as before, unless it had no tag and
    is part of a match for one of the targets, which then is its tag; the sub tag is then
    the one it had or that of one of the sub annotations of the same target. *)
Theorem C54_no_overwrite fuel targets d d' : Forall (fun a => ma_name a <> []) targets ->
  annotate fuel targets d = Ok d' -> matched_only targets d d'.
Proof.
  intros Hn. unfold matching_annotate. destruct (sequences sp alpha lower d) as [seqs|] eqn:Es; [|discriminate]. cbn [bind].
  pose proof (sequences_run d seqs Es) as R.
  destruct (foldM _ _ targets) as [[[d1 cm1] mm1]|] eqn:E; [|discriminate]. cbn [bind fst]. intros [= <-].
  assert (X : (fun st : doc * option (mann * list smatch) * list (str * list Z) =>
     matched_only targets d (fst (fst st)) /\ cond_ok targets d (snd (fst st))) (d1, cm1, mm1)); [|exact (proj1 X)].
  eapply (foldM_inv (fun st : doc * option (mann * list smatch) * list (str * list Z) =>
     matched_only targets d (fst (fst st)) /\ cond_ok targets d (snd (fst st)))); [| |exact E].
  2:{ cbn. split; [apply matched_only_refl|exact I]. }
  intros [[b cmb] mmb] a [[b' cmb'] mmb'] Hin [Hb Hcb] H. cbn [fst snd] in *. unfold ModelMatch.target_step in H.
  destruct (njv (ma_value a)) as [value|] eqn:Ev; [|discriminate]. cbn [bind] in H.
  destruct (target_loop fuel a value b cmb _ _) as [[[d2 cm2] mt2]|] eqn:El; [|discriminate]. cbn [bind] in H. injection H as <- <- _.
  eapply loop_matched; [exact Hn|exact Hin|exact Ev|exact Hb|exact Hcb| |exact El].
  split; [constructor|]. split; [split; [constructor|exact R]|cbn; lia].
Qed.

(* ---------------------------------------------------------------- *)
(** *** It always gives a result *)
Definition fm_ok (f : fmr) : Prop := valid (f_a f) (f_b f) (f_blocks f) /\ junk_total (f_junk f).
Definition filter_total (flt : fm_filter) : Prop := forall fm o prev, fm_ok fm ->
  match o with Some f => fm_ok f | None => True end -> exists b, flt fm o prev = Ok b.
Hypothesis blocks_total : forall a b, exists l, blocks a b = Ok l /\ valid a b l.
Hypothesis seq_total : filter_total seq_filter.
Hypothesis choice_total : filter_total choice_filter.

Lemma sorted_map {A} (R : A -> A -> Prop) (P : A -> Prop) (g : A -> A) l : Forall P l ->
  (forall x y, P x -> P y -> R x y -> R (g x) (g y)) -> StronglySorted R l -> StronglySorted R (map g l).
Proof.
  intros HP Hg H. induction H as [|x l H IH F]; cbn [map]; [constructor|]. inversion HP as [|? ? Px HP']; subst. constructor; [auto|].
  rewrite Forall_map. rewrite Forall_forall in *. intros y Hy. apply Hg; auto.
Qed.
Lemma slice_pre_len (x : str) i : (0 <= i)%Z -> slen (py_slice x 0 i) = Z.min i (slen x).
Proof. intros H. rewrite py_slice_pos by lia. unfold slen. rewrite skipn_O, firstn_length. lia. Qed.
Lemma slice_post_len (x : str) i : (0 <= i)%Z -> slen (py_from x i) = Z.max 0 (slen x - i).
Proof. intros H. unfold py_from. rewrite py_slice_pos by (unfold slen; lia). unfold slen. rewrite firstn_length, skipn_length. lia. Qed.
Lemma non_empty_in f x : In x (non_empty f) -> In x (f_blocks f).
Proof. unfold non_empty. intros H. now apply filter_In in H. Qed.
Lemma split_b_ok f i : fm_ok f -> (0 <= i)%Z -> fm_ok (fst (b_split_at dj f i)) /\ fm_ok (snd (b_split_at dj f i)).
Proof.
  intros [Hv _] Hi. destruct (b_split_general dj f i Hv) as [E1 E2].
  destruct (b_split_texts dj f i) as (T1 & T2 & T3 & T4). destruct (non_empty_valid f Hv) as [N1 N2].
  assert (J : forall g, g = fst (b_split_at dj f i) \/ g = snd (b_split_at dj f i) -> f_junk g = dj).
  { intros g [->| ->]; unfold b_split_at; destruct (non_empty f); cbn; auto; destruct (_ <=? _)%Z; reflexivity. }
  unfold fm_ok, valid. rewrite (J _ (or_introl eq_refl)), (J _ (or_intror eq_refl)), E1, E2, T1, T2, T3, T4.
  pose proof (default_total alpha) as Jt. rewrite Forall_forall in N1.
  split; (split; [split|exact Jt]).
  - apply Forall_forall. intros y Hy. apply in_map_iff in Hy as (x & <- & Hx). apply filter_In in Hx as [Hx Hl]. apply Z.ltb_lt in Hl.
    specialize (N1 x Hx). unfold in_bounds in *. rewrite slice_pre_len by exact Hi. unfold b_a, b_b, b_n in *. cbn [fst snd]. lia.
  - eapply (sorted_map _ (fun x => b_b x < i)%Z); [|  |apply filter_sorted; exact N2].
    + apply Forall_forall. intros x Hx. apply filter_In in Hx as [_ Hx]. now apply Z.ltb_lt.
    + intros x y _ _. unfold follows, b_a, b_b, b_n. cbn [fst snd]. lia.
  - apply Forall_forall. intros y Hy. apply in_map_iff in Hy as (x & <- & Hx). apply filter_In in Hx as [Hx Hl]. apply Z.ltb_lt in Hl.
    specialize (N1 x Hx). unfold in_bounds in *. rewrite slice_post_len by exact Hi. unfold b_a, b_b, b_n in *. cbn [fst snd] in *.
    destruct (i <=? snd (fst x))%Z eqn:E; [apply Z.leb_le in E|apply Z.leb_gt in E]; lia.
  - eapply (sorted_map _ (fun x => i < b_b x + b_n x)%Z); [|  |apply filter_sorted; exact N2].
    + apply Forall_forall. intros x Hx. apply filter_In in Hx as [_ Hx]. now apply Z.ltb_lt.
    + intros x y Hx Hy. unfold follows, b_a, b_b, b_n in *. cbn [fst snd].
      destruct (i <=? snd (fst x))%Z eqn:E; [apply Z.leb_le in E|apply Z.leb_gt in E]; lia.
Qed.
Lemma split_a_ok f i : fm_ok f -> (0 <= i)%Z -> fm_ok (fst (a_split_at dj f i)) /\ fm_ok (snd (a_split_at dj f i)).
Proof.
  intros [Hv _] Hi. destruct (a_split_general dj f i Hv) as [E1 E2].
  destruct (a_split_texts dj f i) as (T1 & T2 & T3 & T4). destruct (non_empty_valid f Hv) as [N1 N2].
  assert (J : forall g, g = fst (a_split_at dj f i) \/ g = snd (a_split_at dj f i) -> f_junk g = dj).
  { intros g [->| ->]; unfold a_split_at; destruct (non_empty f); cbn; auto; destruct (_ <=? _)%Z; reflexivity. }
  unfold fm_ok, valid. rewrite (J _ (or_introl eq_refl)), (J _ (or_intror eq_refl)), E1, E2, T1, T2, T3, T4.
  pose proof (default_total alpha) as Jt. rewrite Forall_forall in N1.
  split; (split; [split|exact Jt]).
  - apply Forall_forall. intros y Hy. apply in_map_iff in Hy as (x & <- & Hx). apply filter_In in Hx as [Hx Hl]. apply Z.ltb_lt in Hl.
    specialize (N1 x Hx). unfold in_bounds in *. rewrite slice_pre_len by exact Hi. unfold b_a, b_b, b_n in *. cbn [fst snd]. lia.
  - eapply (sorted_map _ (fun x => b_a x < i)%Z); [|  |apply filter_sorted; exact N2].
    + apply Forall_forall. intros x Hx. apply filter_In in Hx as [_ Hx]. now apply Z.ltb_lt.
    + intros x y _ _. unfold follows, b_a, b_b, b_n. cbn [fst snd]. lia.
  - apply Forall_forall. intros y Hy. apply in_map_iff in Hy as (x & <- & Hx). apply filter_In in Hx as [Hx Hl]. apply Z.ltb_lt in Hl.
    specialize (N1 x Hx). unfold in_bounds in *. rewrite slice_post_len by exact Hi. unfold b_a, b_b, b_n in *. cbn [fst snd] in *.
    destruct (i <=? fst (fst x))%Z eqn:E; [apply Z.leb_le in E|apply Z.leb_gt in E]; lia.
  - eapply (sorted_map _ (fun x => i < b_a x + b_n x)%Z); [|  |apply filter_sorted; exact N2].
    + apply Forall_forall. intros x Hx. apply filter_In in Hx as [_ Hx]. now apply Z.ltb_lt.
    + intros x y Hx Hy. unfold follows, b_a, b_b, b_n in *. cbn [fst snd].
      destruct (i <=? fst (fst x))%Z eqn:E; [apply Z.leb_le in E|apply Z.leb_gt in E]; lia.
Qed.
Lemma no_next_b f : fm_ok f -> has_match (snd (b_split_at dj f (slen (f_b f)))) = false.
Proof.
  intros [Hv _]. destruct (b_split_general dj f (slen (f_b f)) Hv) as [_ E].
  assert (N : f_blocks (snd (b_split_at dj f (slen (f_b f)))) = []).
  { rewrite E. destruct (non_empty_valid f Hv) as [N1 _]. rewrite Forall_forall in N1.
    destruct (filter _ _) as [|x l] eqn:Ef; [reflexivity|]. assert (In x (x :: l)) as Hx by now left. rewrite <- Ef in Hx.
    apply filter_In in Hx as [Hx Hl]. apply Z.ltb_lt in Hl. specialize (N1 x Hx). unfold in_bounds in N1. lia. }
  unfold has_match, non_empty. now rewrite N.
Qed.
Lemma no_next_a f : fm_ok f -> has_match (snd (a_split_at dj f (slen (f_a f)))) = false.
Proof.
  intros [Hv _]. destruct (a_split_general dj f (slen (f_a f)) Hv) as [_ E].
  assert (N : f_blocks (snd (a_split_at dj f (slen (f_a f)))) = []).
  { rewrite E. destruct (non_empty_valid f Hv) as [N1 _]. rewrite Forall_forall in N1.
    destruct (filter _ _) as [|x l] eqn:Ef; [reflexivity|]. assert (In x (x :: l)) as Hx by now left. rewrite <- Ef in Hx.
    apply filter_In in Hx as [Hx Hl]. apply Z.ltb_lt in Hl. specialize (N1 x Hx). unfold in_bounds in N1. lia. }
  unfold has_match, non_empty. now rewrite N.
Qed.
Lemma slen_nonneg {A} (x : list A) : (0 <= slen x)%Z.
Proof. unfold slen. lia. Qed.
Lemma regular_total s1 choice next matched start prev :
  exists s, regular_step sp alpha blocks seq_filter s1 choice next matched start prev = Ok s.
Proof.
  unfold regular_step, fuzzy_match. destruct (blocks_total s1 (combined (sq_text choice) next)) as (l & -> & Hl). cbn [bind].
  set (fmc := mkF s1 (combined (sq_text choice) next) l dj).
  assert (Hc : fm_ok fmc) by (split; [exact Hl|apply default_total]).
  pose proof (split_b_ok fmc (slen (sq_text choice)) Hc (slen_nonneg _)) as [O1 O2].
  assert (Hn : next = None -> has_match (snd (b_split_at dj fmc (slen (sq_text choice)))) = false).
  { intros ->. exact (no_next_b fmc Hc). }
  destruct (b_split_at dj fmc (slen (sq_text choice))) as [fm fmn]. cbn [fst snd] in *.
  destruct (has_match fm) eqn:Eh; cbn [bind]; [|eauto].
  destruct (seq_total fm (Some fmn) prev O1 O2) as [a1 ->]. cbn [bind].
  assert (A : exists acc, (if a1 : bool then Ok true else do b <- seq_filter fmc None false ;; Ok (b && (fst (b_index_range fm) <? slen (sq_text choice))%Z)) = Ok acc).
  { destruct a1; [eauto|]. destruct (seq_total fmc None false Hc I) as [b1 ->]. cbn. eauto. }
  destruct A as [acc ->]. cbn [bind]. destruct acc; [|eauto]. unfold next_match. destruct (has_match fmn) eqn:En; cbn [bind]; [|eauto].
  destruct next as [n|]; [cbn; eauto|]. specialize (Hn eq_refl). congruence.
Qed.
Lemma short_total s1 choice next matched start prev :
  exists s, short_step alpha blocks choice_filter s1 choice next matched start prev = Ok s.
Proof.
  unfold short_step, fuzzy_match. destruct (blocks_total (combined (sq_text choice) next) (py_from s1 start)) as (l & -> & Hl). cbn [bind].
  set (fmc := mkF (combined (sq_text choice) next) (py_from s1 start) l dj).
  assert (Hc : fm_ok fmc) by (split; [exact Hl|apply default_total]).
  pose proof (split_a_ok fmc (slen (sq_text choice)) Hc (slen_nonneg _)) as [O1 O2].
  assert (Hn : next = None -> has_match (snd (a_split_at dj fmc (slen (sq_text choice)))) = false).
  { intros ->. exact (no_next_a fmc Hc). }
  destruct (a_split_at dj fmc (slen (sq_text choice))) as [fm fmn]. cbn [fst snd] in *.
  destruct (has_match fm) eqn:Eh; cbn [bind]; [|eauto].
  destruct (choice_total fm None prev O1 I) as [a1 ->]. cbn [bind].
  assert (A : exists acc, (if a1 : bool then Ok true else do b <- choice_filter fmc None false ;; Ok (b && (fst (a_index_range fmc) <? slen (sq_text choice))%Z)) = Ok acc).
  { destruct a1; [eauto|]. destruct (choice_total fmc None false Hc I) as [b1 ->]. cbn. eauto. }
  destruct A as [acc ->]. cbn [bind]. destruct acc; [|eauto]. unfold next_match. destruct (has_match fmn) eqn:En; cbn [bind]; [|eauto].
  destruct next as [n|]; [cbn; eauto|]. specialize (Hn eq_refl). congruence.
Qed.
Lemma do_find_total (G : seqp -> Prop) is_sub s1 l : Forall (good_pair G) l -> forall matched start prev, exists r, do_find is_sub s1 l matched start prev = Ok r.
Proof.
  induction 1 as [|[[choice|] next] l Hp Hl IH]; intros matched start prev; cbn [ModelMatch.do_find]; [eauto| |contradiction].
  destruct (negb (is_close_to_any _ _ _)).
  { destruct (IH matched start prev) as [[[ms mt] k] ->]. cbn. eauto. }
  destruct (negb (nonempty _)); [eauto|].
  assert (S : exists s, (if is_sub || (slen s1 - start <? slen (sq_text choice))%Z
                 then short_step alpha blocks choice_filter s1 choice next matched start prev
                 else regular_step sp alpha blocks seq_filter s1 choice next matched start prev) = Ok s).
  { destruct (is_sub || _); [apply short_total|apply regular_total]. }
  destruct S as [s ->]. cbn [bind]. destruct (sp_last s); [eauto|].
  destruct (IH (sp_matched s) (sp_start s) (sp_prev s)) as [[[ms mt] k] ->]. cbn. eauto.
Qed.
Lemma find_next_total (G : seqp -> Prop) (G_words : forall s, G s -> sq_words s <> []) (G_sub : forall d s x, G s -> In x (sub_sequences d s) -> G x)
    is_sub name bonding value d f matched : finder_ok G f -> exists r, find_next is_sub name bonding value d f matched = Ok r.
Proof.
  intros Hf. destruct (pairs_ok G G_words G_sub d f Hf) as [P _]. unfold ModelMatch.find_next. destruct value as [s|values].
  - destruct (do_find_total G is_sub s _ P matched 0%Z false) as [[[ms mt] k] ->]. cbn. eauto.
  - assert (L : forall values matched, exists r, find_list is_sub (pairs d f) values matched = Ok r).
    { induction values0 as [|s v IH]; intros m; cbn [ModelMatch.find_list]; [eauto|].
      destruct (do_find_total G is_sub s _ P m 0%Z false) as [[[ms mt] k] ->]. cbn [bind]. destruct (IH mt) as [[[ms' mt'] ks] ->]. cbn. eauto. }
    destruct (L values matched) as [[[ms mt] ks] ->]. cbn. eauto.
Qed.
Lemma foldM_total {A B} (f : B -> A -> res B) l : (forall b a, exists b', f b a = Ok b') -> forall b, exists b', foldM f b l = Ok b'.
Proof. intros H. induction l as [|a l IH]; intros b; cbn [foldM]; [eauto|]. destruct (H b a) as [b' ->]. apply IH. Qed.
Lemma matches_total a ms d : exists d', apply_matches a ms d = Ok d'.
Proof.
  unfold ModelMatch.apply_matches. edestruct (foldM_total (apply_match a) ms) as [r Hr]; [|rewrite Hr; cbn; eauto].
  intros st m. unfold ModelMatch.apply_match. destruct (fold_left _ _ st) as [[d1 f1] all1]. destruct (ma_subs a) as [|s0 subs]; [eauto|].
  unfold ModelMatch.apply_subs. set (s := sub_sequence sp lower d1 all1).
  edestruct (foldM_total (apply_sub s) (s0 :: subs)) as [r Hr]; [|rewrite Hr; cbn; eauto].
  intros [d2 mt2] sa. unfold ModelMatch.apply_sub. cbn [fst snd].
  assert (F : exists r, find_next true (ms_name sa) (ms_bonding sa) (nstr_value lower (ms_value sa)) d2 (new_finder (mkGen [s] [])) mt2 = Ok r).
  { unfold ModelMatch.find_next. change (pairs d2 (new_finder (mkGen [s] []))) with [(Some s, @None seqp)].
    assert (P : Forall (good_pair (fun _ => True)) [(Some s, @None seqp)]) by (repeat constructor).
    destruct (nstr_value lower (ms_value sa)) as [v|values].
    - destruct (do_find_total _ true v _ P mt2 0%Z false) as [[[ms' mt'] k] ->]. cbn. eauto.
    - assert (L : forall values matched, exists r, find_list true [(Some s, @None seqp)] values matched = Ok r).
      { induction values0 as [|v vs IH]; intros m'; cbn [ModelMatch.find_list]; [eauto|].
        destruct (do_find_total _ true v _ P m' 0%Z false) as [[[ms' mt'] k] ->]. cbn [bind]. destruct (IH mt') as [[[ms'' mt''] ks] ->]. cbn. eauto. }
      destruct (L values mt2) as [[[ms' mt'] ks] ->]. cbn. eauto. }
  destruct F as [[[ms' mt'] f'] ->]. cbn. eauto.
Qed.
Lemma loop_total a value d0 fuel : forall d cm f matched, finder_ok (run_of d0) f -> budget f < fi_cur f + fuel -> 0 < fuel ->
  exists r, target_loop fuel a value d cm f matched = Ok r.
Proof.
  induction fuel as [|fuel IH]; intros d cm f matched Hf Hb H0; [lia|]. cbn [ModelMatch.target_loop].
  assert (G1 : forall s, run_of d0 s -> sq_words s <> []) by now intros s [].
  assert (G2 : forall d s x, run_of d0 s -> In x (sub_sequences d s) -> run_of d0 x) by (intros x s y; apply run_of_sub).
  destruct (find_next_total (run_of d0) G1 G2 false (ma_name a) (ma_bonding a) value d f matched Hf) as [[[found mt] f'] E]. rewrite E. cbn [bind].
  destruct (find_next_found (run_of d0) G1 G2 _ _ _ _ _ _ _ _ _ _ Hf E) as (_ & F1 & F2 & F3).
  destruct (sorted_matches found) as [|m0 ms0] eqn:Es; [eauto|].
  assert (Hn : found <> []) by (intros ->; discriminate). specialize (F3 Hn).
  assert (E1 : exists d1, match cm with
                   | Some (ca, cms) => if (distance_between (m0 :: ms0) cms <=? 1)%Z then apply_matches ca cms d else Ok d
                   | None => Ok d
                   end = Ok d1).
  { destruct cm as [[ca cms]|]; [|eauto]. destruct (_ <=? _)%Z; [apply matches_total|eauto]. }
  destruct E1 as [d1 ->]. cbn [bind].
  assert (E2 : exists r2, (if ma_next a then Ok (d1, Some (a, m0 :: ms0)) else do d2 <- apply_matches a (m0 :: ms0) d1 ;; Ok (d2, cm)) = Ok r2).
  { destruct (ma_next a); [eauto|]. destruct (matches_total a (m0 :: ms0) d1) as [d2 ->]. cbn. eauto. }
  destruct E2 as [[d2 cm2] ->]. cbn [bind]. destruct (ma_multiple a); [|eauto]. apply IH; [exact F1|lia|lia].
Qed.
Lemma njstr_total s : exists r, njstr alpha lower s = Ok r.
Proof. unfold njstr. rewrite C26_default. eauto. Qed.
Lemma mapM_total {A B} (f : A -> res B) l : (forall x, exists y, f x = Ok y) -> exists r, mapM f l = Ok r.
Proof. intros H. induction l as [|x l [r IH]]; cbn [mapM]; [eauto|]. destruct (H x) as [y ->]. cbn [bind]. rewrite IH. cbn. eauto. Qed.
Lemma word_indices_length i l : forall j, length (word_indices sp i j l) <= length l.
Proof. unfold line in l. induction l as [|t l IH]; intros j; cbn [word_indices]; [cbn; lia|]. rewrite app_length. specialize (IH (S j)). cbn [length]. destruct (is_space sp t); cbn [length]; unfold line in *; lia. Qed.
Lemma filter_length {A} (p : A -> bool) l : length (filter p l) <= length l.
Proof. induction l as [|x l IH]; cbn; [lia|]. destruct (p x); cbn; lia. Qed.
Lemma initial_count d : forall i, list_sum (map (@length _) (filter nonempty (map (filter (untagged d)) (line_words sp i d)))) <= length (concat d).
Proof.
  enough (G : forall P (dd : doc) i, list_sum (map (@length (nat * nat)) (filter nonempty (map (filter P) (line_words sp i dd)))) <= length (concat dd)) by (intros i; apply G).
  intros P dd. induction dd as [|l dd IH]; intros i; cbn [line_words map]; [cbn; lia|]. cbn [filter concat]. rewrite app_length.
  pose proof (filter_length P (word_indices sp i 0 l)) as F1. pose proof (word_indices_length i l 0) as F2. specialize (IH (S i)).
  destruct (nonempty _); [|unfold line in *; lia]. cbn [map]. change (list_sum (?a :: ?b)) with (a + list_sum b). unfold line in *. lia.
Qed.
Lemma sequences_total d : exists seqs, sequences sp alpha lower d = Ok seqs /\ words_of seqs <= length (concat d).
Proof.
  unfold sequences. destruct (mapM_total (wrap_junk sp alpha lower d) (initial_sequences sp d)) as [l E].
  { intros ps. unfold wrap_junk. apply mapM_total. intros t. destruct (njstr_total (w_str t)) as [r ->]. cbn. eauto. }
  rewrite E. cbn [bind]. eexists. split; [reflexivity|]. apply mapM_Forall2 in E.
  etransitivity; [|apply (initial_count d 0)]. fold (initial_sequences sp d).
  assert (I : forall ps, In ps (initial_sequences sp d) -> Forall (fun p => tok_at d p <> None) ps).
  { intros ps Hp. destruct (in_initial d ps Hp) as [_ (i & F)]. eapply Forall_impl; [|exact F]. cbn beta. intros p (_ & _ & X). exact X. }
  generalize 0%Z as i. induction E as [|ps q lp lq Hpq E IH]; intros i; cbn [with_positions]; [cbn; lia|]. rewrite words_of_cons. cbn [sq_words map].
  change (list_sum (?a :: ?b)) with (a + list_sum b).
  assert (M : map w_tok q = ps) by (eapply wrap_junk_toks; [exact Hpq|]; apply I; now left).
  rewrite <- M, map_length. apply Nat.add_le_mono_l, IH. intros x Hx. apply I. now right.
Qed.

(** With matching blocks within the texts and filters that do not fail, the annotator
    gives a document: the loop for targets that may match several times ends after at most
    as many rounds as there are tokens, the choice of a pair is never missing, and there
    is a next choice whenever there is a match in it. *)
Theorem C54_total fuel targets d : length (concat d) < fuel -> exists d', annotate fuel targets d = Ok d'.
Proof.
  intros Hfu. unfold matching_annotate. destruct (sequences_total d) as (seqs & E & Hw). rewrite E. cbn [bind].
  pose proof (sequences_run d seqs E) as R.
  match goal with |- context [foldM ?g ?b ?l] => assert (F : exists r, foldM g b l = Ok r); [|destruct F as [r ->]; cbn; eauto] end.
  apply foldM_total. intros [[b cmb] mmb] a. unfold ModelMatch.target_step.
  assert (V : exists value, njv (ma_value a) = Ok value).
  { unfold njstr_value. destruct (ma_value a) as [s|l].
    - destruct (njstr_total s) as [r ->]. cbn. eauto.
    - destruct (mapM_total (njstr alpha lower) l njstr_total) as [r ->]. cbn. eauto. }
  destruct V as [value ->]. cbn [bind].
  match goal with |- context [target_loop fuel a value b cmb ?f ?m] => destruct (loop_total a value d fuel b cmb f m) as [[[d2 cm2] mt2] ->] end.
  - split; [constructor|]. split; [split; [constructor|exact R]|cbn; lia].
  - unfold budget. cbn [new_finder fi_log fi_gen fi_cur g_buffer g_rest length]. unfold doc, line in *. lia.
  - lia.
  - cbn. eauto.
Qed.
End C54.

(** the default filters do not fail *)
Lemma default_filter_total score min_count ratio_min : filter_total (simple_filter score min_count ratio_min).
Proof.
  intros fm o prev [Hv Hj] Ho. unfold simple_filter, get_fuzzy_match_filter.
  destruct (C28_ratios fm Hv Hj) as (r1 & r2 & r3 & r4 & r5 & E1 & E2 & E3 & E4 & _). rewrite E1, E2, E4. cbn [bind].
  assert (F : exists first, (if (ratio_min <=? match_count fm)%Z then Ok (Qle_bool score r1) else Ok false) = Ok first) by (destruct (_ <=? _)%Z; eauto).
  destruct F as [first ->]. cbn [bind]. destruct first; [eauto|]. destruct (negb _); [eauto|]. destruct prev; [eauto|].
  assert (N : exists nx, (if (min_count <=? match_count fm)%Z then match o with None => Ok true | Some f => do r <- ratio f ;; Ok (Qle_bool score r) end else Ok false) = Ok nx).
  { destruct (_ <=? _)%Z; [|eauto]. destruct o as [f|]; [|eauto]. destruct Ho as [Hv' Hj'].
    destruct (C28_ratios f Hv' Hj') as (s1 & _ & _ & _ & _ & -> & _). cbn. eauto. }
  destruct N as [nx ->]. cbn [bind]. destruct nx; cbn; eauto.
Qed.

(* ---------------------------------------------------------------- *)
(** ** C66: the part of a match on the next line *)
(** Searching in two neighbouring sequences at once, [index] is the length of the first;
    after it there is a space.  The range reported for the second starts to count at the
    space: it is [s - index, e - index] for the range [s, e] of the match beyond the
    first. *)
Definition start_beyond_b (f : fmr) (index : Z) : Z :=
  match filter (fun x => (index <? b_b x + b_n x)%Z) (non_empty f) with x :: _ => Z.max index (b_b x) | [] => 0%Z end.
Definition start_beyond_a (f : fmr) (index : Z) : Z :=
  match filter (fun x => (index <? b_a x + b_n x)%Z) (non_empty f) with x :: _ => Z.max index (b_a x) | [] => 0%Z end.
Lemma filter_nonempty (l : list block) : Forall (fun x => b_n x <> 0%Z) l -> filter (fun x => negb (b_n x =? 0)%Z) l = l.
Proof. induction 1 as [|x l Hx H IH]; [reflexivity|]. cbn [filter]. apply Z.eqb_neq in Hx. rewrite Hx. cbn. now f_equal. Qed.
Lemma last_map_block (g : block -> block) l x : last_block (map g (x :: l)) = g (last_block (x :: l)).
Proof.
  unfold last_block. revert x. induction l as [|y l IH]; intros x; [reflexivity|]. cbn [map] in *.
  change (last (g x :: g y :: map g l) (0, 0, 0)%Z) with (last (g y :: map g l) (0, 0, 0)%Z).
  change (last (x :: y :: l) (0, 0, 0)%Z) with (last (y :: l) (0, 0, 0)%Z). apply IH.
Qed.
Lemma last_filter (p : block -> bool) l : p (last_block l) = true -> last_block (filter p l) = last_block l.
Proof.
  unfold last_block. induction l as [|x l IH]; [reflexivity|]. destruct l as [|y l].
  - cbn. intros ->. reflexivity.
  - change (last (x :: y :: l) (0, 0, 0)%Z) with (last (y :: l) (0, 0, 0)%Z). intros H. specialize (IH H).
    assert (N : filter p (y :: l) <> []).
    { assert (I : In (last (y :: l) (0, 0, 0)%Z) (filter p (y :: l))).
      { apply filter_In. split; [|exact H]. clear. revert y. induction l as [|z l IH]; intros y; [now left|]. right. apply IH. }
      intros E. now rewrite E in I. }
    change (filter p (x :: y :: l)) with (if p x then x :: filter p (y :: l) else filter p (y :: l)).
    destruct (p x); [|exact IH]. rewrite <- IH. destruct (filter p (y :: l)); [congruence|reflexivity].
Qed.
Theorem C66_next_partial dj f index : valid (f_a f) (f_b f) (f_blocks f) -> (0 <= index)%Z ->
  has_match (snd (b_split_at dj f index)) = true ->
  b_index_range (snd (b_split_at dj f index)) = (start_beyond_b f index - index, snd (b_index_range f) - index)%Z.
Proof.
  intros Hv Hi H. destruct (b_split_general dj f index Hv) as [_ E]. destruct (non_empty_valid f Hv) as [N1 N2].
  revert H. unfold has_match, start_beyond_b, b_index_range.
  change (non_empty (snd (b_split_at dj f index))) with (filter (fun x => negb (b_n x =? 0)%Z) (f_blocks (snd (b_split_at dj f index)))).
  rewrite E. clear E. remember (non_empty f) as l eqn:El.
  assert (F : Forall (fun x => b_n x <> 0%Z)
     (map (fun x => (b_a x, Z.max 0 (b_b x - index), if (index <=? b_b x)%Z then b_n x else (b_n x + b_b x - index)%Z))
        (filter (fun x => (index <? b_b x + b_n x)%Z) l))).
  { rewrite Forall_map. apply Forall_forall. intros x Hx. apply filter_In in Hx as [Hx Hl]. apply Z.ltb_lt in Hl.
    pose proof (non_empty_facts f Hv) as P. rewrite <- El, Forall_forall in P. specialize (P x Hx). cbv beta in P.
    unfold b_n, b_a, b_b in *. cbn [fst snd]. destruct (index <=? _)%Z; lia. }
  rewrite (filter_nonempty _ F). clear F. rewrite Forall_forall in N1.
  destruct (filter (fun x => (index <? b_b x + b_n x)%Z) l) as [|x r] eqn:Ef; [discriminate|]. intros _.
  assert (Hx : In x l /\ (index < b_b x + b_n x)%Z).
  { assert (In x (x :: r)) as Hx by now left. rewrite <- Ef in Hx. apply filter_In in Hx as [? Hx]. apply Z.ltb_lt in Hx. auto. }
  destruct l as [|y l]; [discriminate|].
  assert (L : last_block (x :: r) = last_block (y :: l)).
  { rewrite <- Ef. apply last_filter. apply Z.ltb_lt. destruct (last_block_max l y N2) as [_ L2].
    - apply Forall_forall. intros z Hz. specialize (N1 z Hz). unfold in_bounds in N1. lia.
    - specialize (L2 x (proj1 Hx)). unfold last_block in *. lia. }
  assert (B : (index < b_b (last_block (y :: l)) + b_n (last_block (y :: l)))%Z).
  { destruct (last_block_max l y N2) as [_ L2].
    - apply Forall_forall. intros z Hz. specialize (N1 z Hz). unfold in_bounds in N1. lia.
    - specialize (L2 x (proj1 Hx)). unfold last_block in *. lia. }
  pose proof (last_map_block (fun x => (b_a x, Z.max 0 (b_b x - index), if (index <=? b_b x)%Z then b_n x else (b_n x + b_b x - index)%Z)) r x) as LM.
  rewrite L in LM. cbn [map] in LM |- *. unfold block in *. rewrite LM. clear LM.
  change (b_b (b_a x, Z.max 0 (b_b x - index), if (index <=? b_b x)%Z then b_n x else (b_n x + b_b x - index)%Z)) with (Z.max 0 (b_b x - index)).
  remember (last_block (y :: l)) as z. destruct z as [[za zb] zn]. unfold b_b, b_n, b_a in *. cbn [fst snd] in *.
  f_equal; [lia|]. destruct (Z.leb_spec index zb); lia.
Qed.
(** the same when the value is the shorter text *)
Theorem C66_next_short_partial dj f index : valid (f_a f) (f_b f) (f_blocks f) -> (0 <= index)%Z ->
  has_match (snd (a_split_at dj f index)) = true ->
  a_index_range (snd (a_split_at dj f index)) = (start_beyond_a f index - index, snd (a_index_range f) - index)%Z.
Proof.
  intros Hv Hi H. destruct (a_split_general dj f index Hv) as [_ E]. destruct (non_empty_valid f Hv) as [N1 N2].
  revert H. unfold has_match, start_beyond_a, a_index_range.
  change (non_empty (snd (a_split_at dj f index))) with (filter (fun x => negb (b_n x =? 0)%Z) (f_blocks (snd (a_split_at dj f index)))).
  rewrite E. clear E. remember (non_empty f) as l eqn:El.
  assert (F : Forall (fun x => b_n x <> 0%Z)
     (map (fun x => (Z.max 0 (b_a x - index), b_b x, if (index <=? b_a x)%Z then b_n x else (b_n x + b_a x - index)%Z))
        (filter (fun x => (index <? b_a x + b_n x)%Z) l))).
  { rewrite Forall_map. apply Forall_forall. intros x Hx. apply filter_In in Hx as [Hx Hl]. apply Z.ltb_lt in Hl.
    pose proof (non_empty_facts f Hv) as P. rewrite <- El, Forall_forall in P. specialize (P x Hx). cbv beta in P.
    unfold b_n, b_b, b_a in *. cbn [fst snd]. destruct (index <=? _)%Z; lia. }
  rewrite (filter_nonempty _ F). clear F. rewrite Forall_forall in N1.
  destruct (filter (fun x => (index <? b_a x + b_n x)%Z) l) as [|x r] eqn:Ef; [discriminate|]. intros _.
  assert (Hx : In x l /\ (index < b_a x + b_n x)%Z).
  { assert (In x (x :: r)) as Hx by now left. rewrite <- Ef in Hx. apply filter_In in Hx as [? Hx]. apply Z.ltb_lt in Hx. auto. }
  destruct l as [|y l]; [discriminate|].
  assert (L : last_block (x :: r) = last_block (y :: l)).
  { rewrite <- Ef. apply last_filter. apply Z.ltb_lt. destruct (last_block_max l y N2) as [_ L2].
    - apply Forall_forall. intros z Hz. specialize (N1 z Hz). unfold in_bounds in N1. lia.
    - specialize (L2 x (proj1 Hx)). unfold last_block in *. lia. }
  assert (B : (index < b_a (last_block (y :: l)) + b_n (last_block (y :: l)))%Z).
  { destruct (last_block_max l y N2) as [_ L2].
    - apply Forall_forall. intros z Hz. specialize (N1 z Hz). unfold in_bounds in N1. lia.
    - specialize (L2 x (proj1 Hx)). unfold last_block in *. lia. }
  pose proof (last_map_block (fun x => (Z.max 0 (b_a x - index), b_b x, if (index <=? b_a x)%Z then b_n x else (b_n x + b_a x - index)%Z)) r x) as LM.
  rewrite L in LM. cbn [map] in LM |- *. unfold block in *. rewrite LM. clear LM.
  change (b_a (Z.max 0 (b_a x - index), b_b x, if (index <=? b_a x)%Z then b_n x else (b_n x + b_a x - index)%Z)) with (Z.max 0 (b_a x - index)).
  remember (last_block (y :: l)) as z. destruct z as [[za zb] zn]. unfold b_a, b_n, b_b in *. cbn [fst snd] in *.
  f_equal; [lia|]. destruct (Z.leb_spec index za); lia.
Qed.
(** the place of a word of the second sequence in the text of both *)
Definition place_beyond (index : Z) (r : irange) : irange := (index + 1 + fst r, index + 1 + snd r)%Z.
(** the words of the second sequence in a match of the text of both *)
Definition words_beyond {A} (index : Z) (q : seqw A) (r : irange) : list A :=
  map (fun p => w_tok (fst p)) (filter (fun p => overlaps (place_beyond index (snd p)) r) (core_placed q)).
(** These are the words found, unless the match starts at the last character of a word or
    ends right before a word (after the space). *)
Lemma words_beyond_eq {A} index (q : seqw A) (s e : Z) :
  Forall (fun p => snd (place_beyond index (snd p)) - 1 <> s /\ fst (place_beyond index (snd p)) <> e)%Z (core_placed q) ->
  core_tokens_between q (s - index, e - index)%Z = words_beyond index q (s, e).
Proof.
  intros H. destruct (C13_core q) as (_ & _ & ->). unfold words_beyond. f_equal. apply filter_ext_in. intros p Hp.
  rewrite Forall_forall in H. specialize (H p Hp). destruct p as [w [x y]]. unfold overlaps, place_beyond in *. cbn [fst snd] in *.
  f_equal; apply eq_true_iff_eq; rewrite !Z.ltb_lt; lia.
Qed.
Theorem C66_words_partial {A} dj f index (q : seqw A) : valid (f_a f) (f_b f) (f_blocks f) -> (0 <= index)%Z ->
  has_match (snd (b_split_at dj f index)) = true ->
  Forall (fun p => snd (place_beyond index (snd p)) - 1 <> start_beyond_b f index /\
                   fst (place_beyond index (snd p)) <> snd (b_index_range f))%Z (core_placed q) ->
  core_tokens_between q (b_index_range (snd (b_split_at dj f index))) =
    words_beyond index q (start_beyond_b f index, snd (b_index_range f)).
Proof. intros Hv Hi Hm H. rewrite (C66_next_partial dj f index Hv Hi Hm). now apply words_beyond_eq. Qed.
Theorem C66_words_short_partial {A} dj f index (q : seqw A) : valid (f_a f) (f_b f) (f_blocks f) -> (0 <= index)%Z ->
  has_match (snd (a_split_at dj f index)) = true ->
  Forall (fun p => snd (place_beyond index (snd p)) - 1 <> start_beyond_a f index /\
                   fst (place_beyond index (snd p)) <> snd (a_index_range f))%Z (core_placed q) ->
  core_tokens_between q (a_index_range (snd (a_split_at dj f index))) =
    words_beyond index q (start_beyond_a f index, snd (a_index_range f)).
Proof. intros Hv Hi Hm H. rewrite (C66_next_short_partial dj f index Hv Hi Hm). now apply words_beyond_eq. Qed.

(* ---------------------------------------------------------------- *)
(** ** Examples *)
(** a simple sequence matcher: longest common parts *)
Fixpoint common_prefix (a b : str) : nat :=
  match a, b with x :: a', y :: b' => if N.eqb x y then S (common_prefix a' b') else 0 | _, _ => 0 end.
Definition longest_in (a b : str) (ps : list (nat * nat)) (z : nat * nat * nat) : nat * nat * nat :=
  fold_left (fun best ij => let n := common_prefix (skipn (fst ij) a) (skipn (snd ij) b) in
      if Nat.ltb (snd best) n then (fst ij, snd ij, n) else best) ps z.
Definition longest (a b : str) : nat * nat * nat :=
  longest_in a b (list_prod (seq 0 (length a)) (seq 0 (length b))) (0, 0, 0).
Fixpoint common_parts (fuel : nat) (a b : str) (oa ob : nat) : list block :=
  match fuel with
  | O => []
  | S f =>
      let '(i, j, n) := longest a b in
      if Nat.eqb n 0 then []
      else common_parts f (firstn i a) (firstn j b) oa ob ++
           (Z.of_nat (oa + i), Z.of_nat (ob + j), Z.of_nat n) ::
           common_parts f (skipn (i + n) a) (skipn (j + n) b) (oa + i + n) (ob + j + n)
  end.
Definition ex_blocks (a b : str) : res (list block) := Ok (common_parts (length a) a b 0 0).
Lemma common_prefix_le a b : common_prefix a b <= length a /\ common_prefix a b <= length b.
Proof.
  revert b. induction a as [|x a IH]; intros [|y b]; cbn; try lia. destruct (N.eqb x y); [|lia]. specialize (IH b). lia.
Qed.
Lemma longest_in_le a b ps z : (fst (fst z) + snd z <= length a /\ snd (fst z) + snd z <= length b) ->
  fst (fst (longest_in a b ps z)) + snd (longest_in a b ps z) <= length a /\
  snd (fst (longest_in a b ps z)) + snd (longest_in a b ps z) <= length b.
Proof.
  revert z. induction ps as [|[i j] ps IH]; intros z H; [exact H|]. unfold longest_in in *. cbn [fold_left]. apply IH. cbn [fst snd].
  destruct (Nat.ltb_spec (snd z) (common_prefix (skipn i a) (skipn j b))) as [L|L]; [|exact H]. cbn [fst snd].
  destruct (common_prefix_le (skipn i a) (skipn j b)) as [H1 H2]. rewrite !skipn_length in *. lia.
Qed.
Lemma common_parts_ok fuel : forall a b oa ob,
  Forall (fun x => Z.of_nat oa <= b_a x /\ Z.of_nat ob <= b_b x /\ 0 <= b_n x /\
                   b_a x + b_n x <= Z.of_nat (oa + length a) /\ b_b x + b_n x <= Z.of_nat (ob + length b))%Z (common_parts fuel a b oa ob) /\
  StronglySorted follows (common_parts fuel a b oa ob).
Proof.
  induction fuel as [|fuel IH]; intros a b oa ob; cbn [common_parts]; [split; constructor|].
  pose proof (longest_in_le a b (list_prod (seq 0 (length a)) (seq 0 (length b))) (0, 0, 0)) as L. cbn [fst snd] in L.
  unfold longest. destruct (longest_in a b _ _) as [[i j] n]. cbn [fst snd] in L. destruct L as [L1 L2]; [lia|].
  destruct (Nat.eqb n 0); [split; constructor|].
  destruct (IH (firstn i a) (firstn j b) oa ob) as [A1 A2].
  destruct (IH (skipn (i + n) a) (skipn (j + n) b) (oa + i + n) (ob + j + n)) as [B1 B2].
  rewrite !firstn_length in A1. rewrite !skipn_length in B1. split.
  - apply Forall_app. split; [eapply Forall_impl; [|exact A1]; intros x Hx; cbn beta in Hx; lia|].
    constructor; [unfold b_a, b_b, b_n; cbn [fst snd]; lia|]. eapply Forall_impl; [|exact B1]. intros x Hx. cbn beta in Hx. lia.
  - rewrite Forall_forall in A1, B1.
    assert (M : StronglySorted follows ((Z.of_nat (oa + i), Z.of_nat (ob + j), Z.of_nat n) ::
       common_parts fuel (skipn (i + n) a) (skipn (j + n) b) (oa + i + n) (ob + j + n))).
    { constructor; [exact B2|]. apply Forall_forall. intros y Hy. specialize (B1 y Hy). cbn beta in B1. unfold follows, b_a, b_b, b_n in *. cbn [fst snd]. lia. }
    revert A2 A1. generalize (common_parts fuel (firstn i a) (firstn j b) oa ob) as l. induction l as [|x l IHl]; intros A2 A1; [exact M|].
    cbn [app]. inversion A2 as [|? ? S1 S2]; subst. constructor; [apply IHl; [exact S1|]; intros y Hy; apply A1; now right|].
    specialize (A1 x (or_introl eq_refl)). apply Forall_app. split; [exact S2|]. apply Forall_forall.
    intros y [<-|Hy]; [|specialize (B1 y Hy)]; unfold follows, b_a, b_b, b_n in *; cbn [fst snd] in *; lia.
Qed.
Lemma ex_blocks_total a b : exists l, ex_blocks a b = Ok l /\ valid a b l.
Proof.
  eexists. split; [reflexivity|]. destruct (common_parts_ok (length a) a b 0 0) as [H1 H2]. split; [|exact H2].
  eapply Forall_impl; [|exact H1]. intros x Hx. cbn beta in Hx. unfold in_bounds, slen. lia.
Qed.
Definition annotate_ex := matching_annotate ascii_space ascii_alpha lower_ascii ex_blocks DEFAULT_SEQ_FILTER DEFAULT_CHOICE_FILTER
  DEFAULT_MAX_MATCH_GAP true.
Definition plain (s : string) : tok := word s None.
Definition title (v : string) : mann :=
  mkMann (u "title") (VOne (u v)) false false false [mkMsub (u "t") (VOne (u "study")) false].
Definition ex_doc : doc := [[plain "about"; plain "things"]; [plain "a"; plain "study"]; [plain "more"; word "study" (Some (u "old"))]].
Definition ex_tags (r : res doc) : option (list (list (ostr * ostr))) :=
  match r with Ok d => Some (map (map (fun t => (tag t, sub t))) d) | Err _ => None end.
Lemma ex_title : ex_tags (annotate_ex 10 [title "About things a study"] ex_doc) =
  Some [[(Some (u "b-title"), None); (Some (u "i-title"), None)];
        [(Some (u "i-title"), None); (Some (u "i-title"), Some (u "b-t"))];
        [(None, None); (Some (u "old"), None)]].
Proof. vm_compute. reflexivity. Qed.
Example C54_ex : exists d', annotate_ex 10 [title "About things a study"] ex_doc = Ok d' /\
  matched_only ex_blocks (njstr_value ascii_alpha lower_ascii) true [title "About things a study"] ex_doc d' /\
  exists t, tok_at d' (1, 1) = Some t /\ tag t = Some (u "i-title") /\ sub t = Some (u "b-t").
Proof.
  destruct (C54_total ascii_space ascii_alpha lower_ascii ex_blocks DEFAULT_SEQ_FILTER DEFAULT_CHOICE_FILTER DEFAULT_MAX_MATCH_GAP true
    ex_blocks_total (default_filter_total _ _ _) (default_filter_total _ _ _) 10 [title "About things a study"] ex_doc) as [d' E]; [cbn; lia|].
  exists d'. split; [exact E|]. split.
  - eapply C54_no_overwrite; [|exact E]. repeat constructor. discriminate.
  - pose proof ex_title as X. unfold annotate_ex in X. rewrite E in X. cbn [ex_tags] in X.
    destruct d' as [|l0 [|[|t0 [|t l]] d']]; try discriminate X. exists t. split; [reflexivity|]. cbn in X. injection X. intros. subst. auto.
Qed.

(** A word is missed: "a" is part of the match over the line break but not tagged *)
Theorem C66_refuted :
  (exists d', annotate_ex 10 [title "About things-a study"] ex_doc = Ok d' /\
     ex_blocks (u "about things-a study") (u "about things a study") = Ok [(0, 0, 12); (13, 13, 7)]%Z /\
     ex_tags (Ok d') =
       Some [[(Some (u "b-title"), None); (Some (u "i-title"), None)];
             [(None, None); (Some (u "i-title"), Some (u "b-t"))];
             [(None, None); (Some (u "old"), None)]]) /\
  (* a word is tagged too many: "x" comes after the end of the match *)
  (let d := [[plain "about"; plain "things"]; [plain "in"; plain "study"; plain "x"; plain "y"]] in
   exists d', annotate_ex 10 [title "About things in study z"] d = Ok d' /\
     ex_blocks (u "about things in study z") (u "about things in study x y") = Ok [(0, 0, 22)]%Z /\
     ex_tags (Ok d') =
       Some [[(Some (u "b-title"), None); (Some (u "i-title"), None)];
             [(Some (u "i-title"), None); (Some (u "i-title"), Some (u "b-t")); (Some (u "i-title"), None); (None, None)]]).
Proof. split; [|intros d; subst d]; (eexists; split; [vm_compute; reflexivity|split; vm_compute; reflexivity]). Qed.
(** the words "an", "study" on the line after "about things" *)
Definition ex_next : seqw nat := [mkW 0 (u "an") []; mkW 1 (u "study") []].
Definition ex_fm : fmr := mkF (u "about things an study") (u "about things an study") [(0, 0, 21)]%Z (default_isjunk ascii_alpha).
Example C66_ex :
  valid (f_a ex_fm) (f_b ex_fm) (f_blocks ex_fm) /\
  has_match (snd (b_split_at (default_isjunk ascii_alpha) ex_fm 12)) = true /\
  Forall (fun p => snd (place_beyond 12 (snd p)) - 1 <> start_beyond_b ex_fm 12 /\
                   fst (place_beyond 12 (snd p)) <> snd (b_index_range ex_fm))%Z (core_placed ex_next) /\
  core_tokens_between ex_next (b_index_range (snd (b_split_at (default_isjunk ascii_alpha) ex_fm 12))) = [0; 1].
Proof.
  split; [|split; [reflexivity|split; [|reflexivity]]].
  - split; [constructor; [vm_compute; intuition congruence|constructor]|repeat constructor].
  - repeat constructor; vm_compute; congruence.
Qed.
Example C66_short_ex :
  has_match (snd (a_split_at (default_isjunk ascii_alpha) ex_fm 12)) = true /\
  Forall (fun p => snd (place_beyond 12 (snd p)) - 1 <> start_beyond_a ex_fm 12 /\
                   fst (place_beyond 12 (snd p)) <> snd (a_index_range ex_fm))%Z (core_placed ex_next) /\
  core_tokens_between ex_next (a_index_range (snd (a_split_at (default_isjunk ascii_alpha) ex_fm 12))) = [0; 1].
Proof. split; [reflexivity|split; [|reflexivity]]. repeat constructor; vm_compute; congruence. Qed.

Print Assumptions C54_no_overwrite.
Print Assumptions C54_total.
Print Assumptions C66_next_partial.
Print Assumptions C66_next_short_partial.
Print Assumptions C66_words_partial.
Print Assumptions C66_words_short_partial.
Print Assumptions C66_refuted.
