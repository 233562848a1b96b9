(** C126: the match detail reports of the complex matcher *)
From Verif Require Import Base ModelTags ModelTokenize ModelTei ModelTeiDoc ModelJoined ModelExtend ModelClusters
  ModelTarget ModelReference ModelFuzzyMatch PropFuzzyMatch ModelWordMatch ModelSimpleMatch ModelMatch ModelReport PropSimpleMatch PropMatch.
Open Scope nat_scope.
Open Scope list_scope.

(* ---------------------------------------------------------------- *)
(** ** Specification *)
Definition something (f : fmr) : Prop := exists b, In b (f_blocks f) /\ b_n b <> 0%Z.
(** a row of the search for the text [s1] *)
Definition row_of (is_sub : bool) (s1 : str) (r : row) : Prop :=
  rw_pre r ++ rw_current r = s1 /\ slen (rw_pre r) = rw_start r /\ rw_choice r <> [] /\
  rw_combined r = match rw_next r with Some n => rw_choice r ++ u " " ++ n | None => rw_choice r end /\
  rw_sub r = is_sub /\ (rw_short r = true <-> is_sub = true \/ (slen (rw_current r) < slen (rw_choice r))%Z) /\
  (rw_accepted r = true -> something (rw_fm r)) /\
  (rw_end r <> None <-> rw_accepted r = true /\ rw_short r = false) /\
  (rw_next_start r <> rw_start r -> rw_end r = Some false).
(** the search stops with the row *)
Definition stops_with (r : row) : Prop := rw_accepted r = true /\ (rw_short r = true \/ rw_end r = Some true).
(** one row goes on where the one before stopped *)
Fixpoint goes_on (start : Z) (rows : list row) : Prop :=
  match rows with
  | [] => True
  | r :: rows' => rw_start r = start /\ (stops_with r -> rows' = []) /\ goes_on (rw_next_start r) rows'
  end.
(** the texts in which a row reports a match *)
Definition row_texts (r : row) (l : list str) : Prop :=
  (rw_accepted r = false /\ l = []) \/
  (rw_accepted r = true /\ ~ something (rw_fm_next r) /\ l = [rw_choice r]) \/
  (exists n, rw_accepted r = true /\ something (rw_fm_next r) /\ rw_next r = Some n /\ l = [rw_choice r; n]).
Definition rows_texts (rows : list row) (l : list str) : Prop := exists ls, Forall2 row_texts rows ls /\ l = concat ls.
(** [e] is the first position from [i] on that is no white space, at most the end *)
Definition after_spaces (sp : N -> bool) (s : str) (i e : Z) : Prop :=
  (i <= e)%Z /\ (forall k x, (i <= k < e)%Z -> nth_error s (Z.to_nat k) = Some x -> sp x = true) /\
  ((e < slen s)%Z -> exists x, nth_error s (Z.to_nat e) = Some x /\ sp x = false).
Section Decided.
Variable sp alpha : N -> bool.
Variable blocks : str -> str -> res (list block).
Variable seq_filter choice_filter : fm_filter.
(** What decides about a row; [prev]: an earlier row of the same search was accepted and
    not short.  The choices in full are matched with the whole text, or with the rest of
    the text if it is short. *)
Definition decided (s1 : str) (prev : bool) (r : row) : Prop :=
  let found := snd (a_index_range (if has_match (rw_fm_next r) then rw_fm_next r else rw_fm r)) in
  if rw_short r then
    f_a (rw_fm_combined r) = rw_combined r /\ f_b (rw_fm_combined r) = rw_current r /\
    blocks (rw_combined r) (rw_current r) = Ok (f_blocks (rw_fm_combined r)) /\
    (rw_fm r, rw_fm_next r) = a_split_at (dj alpha) (rw_fm_combined r) (slen (rw_choice r)) /\
    (rw_accepted r = true <-> something (rw_fm r) /\
       (choice_filter (rw_fm r) None prev = Ok true \/
        choice_filter (rw_fm_combined r) None false = Ok true /\ (fst (a_index_range (rw_fm_combined r)) < slen (rw_choice r))%Z))
  else
    f_a (rw_fm_combined r) = s1 /\ f_b (rw_fm_combined r) = rw_combined r /\
    blocks s1 (rw_combined r) = Ok (f_blocks (rw_fm_combined r)) /\
    (rw_fm r, rw_fm_next r) = b_split_at (dj alpha) (rw_fm_combined r) (slen (rw_choice r)) /\
    (rw_accepted r = true <-> something (rw_fm r) /\
       (seq_filter (rw_fm r) (Some (rw_fm_next r)) prev = Ok true \/
        seq_filter (rw_fm_combined r) None false = Ok true /\ (fst (b_index_range (rw_fm r)) < slen (rw_choice r))%Z)) /\
    (rw_accepted r = true -> exists e, after_spaces sp s1 found e /\
       (rw_end r = Some true /\ (slen s1 <= e)%Z /\ rw_next_start r = rw_start r \/
        rw_end r = Some false /\ (e < slen s1)%Z /\ rw_next_start r = e)).
Fixpoint all_decided (s1 : str) (prev : bool) (rows : list row) : Prop :=
  match rows with
  | [] => True
  | r :: rows' => decided s1 prev r /\ all_decided s1 (prev || (rw_accepted r && negb (rw_short r))) rows'
  end.
Definition search_rows (is_sub : bool) (s1 : str) (rows : list row) : Prop :=
  goes_on 0 rows /\ Forall (row_of is_sub s1) rows /\ all_decided s1 false rows.
End Decided.
Definition texts (ms : list smatch) : list str := map (fun m => sq_text (sm_seq m)) ms.

(* ---------------------------------------------------------------- *)
Lemma something_spec f : (if has_match f then something f else ~ something f).
Proof.
  unfold has_match, something. destruct (non_empty f) as [|b l] eqn:E.
  - intros (b & Hb & N). assert (In b (non_empty f)) as H by (apply filter_In; split; [exact Hb|]; apply negb_true_iff; now apply Z.eqb_neq).
    rewrite E in H. contradiction.
  - assert (In b (non_empty f)) as H by (rewrite E; now left). apply filter_In in H as [H1 H2]. exists b. split; [exact H1|].
    apply negb_true_iff in H2. now apply Z.eqb_neq.
Qed.
Lemma rows_texts_nil : rows_texts [] [].
Proof. exists []. split; constructor. Qed.
Lemma rows_texts_cons r rows l1 l2 : row_texts r l1 -> rows_texts rows l2 -> rows_texts (r :: rows) (l1 ++ l2).
Proof. intros H (ls & H1 & ->). exists (l1 :: ls). split; [now constructor|reflexivity]. Qed.
Lemma rows_texts_app r1 r2 l1 l2 : rows_texts r1 l1 -> rows_texts r2 l2 -> rows_texts (r1 ++ r2) (l1 ++ l2).
Proof. intros (x & H1 & ->) (y & H2 & ->). exists (x ++ y). split; [now apply Forall2_app|now rewrite concat_app]. Qed.
Lemma written_ids l : forall id w, written id l = Ok w -> map snd w = l /\ map fst w = map (fun k => id + Z.of_nat k)%Z (seq 0 (length l)).
Proof.
  induction l as [|r l IH]; intros id w; cbn [written]; [intros [= <-]; auto|].
  destruct (shown (rw_fm_combined r)) as [?|?]; cbn [bind]; [|discriminate]. destruct (shown (rw_fm r)) as [?|?]; cbn [bind]; [|discriminate].
  destruct (shown (rw_fm_next r)) as [?|?]; cbn [bind]; [|discriminate]. destruct (written (id + 1) l) as [w'|?] eqn:E; cbn [bind]; [|discriminate].
  intros [= <-]. destruct (IH _ _ E) as [H1 H2]. cbn [map fst snd length seq]. rewrite H1, H2. split; [reflexivity|]. f_equal; [lia|].
  rewrite <- seq_shift, map_map. apply map_ext. intros k. lia.
Qed.
Lemma shown_total f : fm_ok f -> exists x, shown f = Ok x.
Proof.
  intros [Hv Hj]. destruct (C28_ratios f Hv Hj) as (r1 & r2 & r3 & r4 & r5 & E1 & E2 & _ & E4 & _). unfold shown. rewrite E1, E2, E4. cbn. eauto.
Qed.

Section C126.
Variable sp alpha : N -> bool.
Variable blocks : str -> str -> res (list block).
Variable seq_filter choice_filter : fm_filter.
Variable max_gap : Z.
Notation dj := (dj alpha).
Notation find_next := (find_next sp alpha blocks seq_filter choice_filter max_gap).
Notation find_list := (find_list sp alpha blocks seq_filter choice_filter max_gap).
Notation do_find := (do_find sp alpha blocks seq_filter choice_filter max_gap).
Notation find_next_reported := (find_next_reported sp alpha blocks seq_filter choice_filter max_gap).
Notation find_list_reported := (find_list_reported sp alpha blocks seq_filter choice_filter max_gap).
Notation do_find_reported := (do_find_reported sp alpha blocks seq_filter choice_filter max_gap).
Notation regular_reported := (regular_reported sp alpha blocks seq_filter).
Notation short_reported := (short_reported alpha blocks choice_filter).

Lemma regular_same is_sub s1 choice next matched start prev :
  regular_step sp alpha blocks seq_filter s1 choice next matched start prev = (do x <- regular_reported is_sub s1 choice next matched start prev ;; Ok (fst x)).
Proof.
  unfold regular_step, ModelReport.regular_reported, fuzzy_match, combined.
  replace (match option_map sq_text next with Some n => sq_text choice ++ u " " ++ n | None => sq_text choice end)
    with (match next with Some n => sq_text choice ++ u " " ++ sq_text n | None => sq_text choice end) by (destruct next; reflexivity).
  destruct (blocks s1 _) as [l|?]; cbn [bind]; [|reflexivity]. destruct (b_split_at dj _ _) as [fm fmn]. cbn [fst snd].
  destruct (if has_match fm then _ else _) as [[]|?]; cbn [bind]; try reflexivity.
  destruct (next_match next fmn b_index_range); cbn [bind]; reflexivity.
Qed.
Lemma short_same is_sub s1 choice next matched start prev :
  short_step alpha blocks choice_filter s1 choice next matched start prev = (do x <- short_reported is_sub s1 choice next matched start prev ;; Ok (fst x)).
Proof.
  unfold short_step, ModelReport.short_reported, fuzzy_match, combined.
  replace (match option_map sq_text next with Some n => sq_text choice ++ u " " ++ n | None => sq_text choice end)
    with (match next with Some n => sq_text choice ++ u " " ++ sq_text n | None => sq_text choice end) by (destruct next; reflexivity).
  destruct (blocks _ _) as [l|?]; cbn [bind]; [|reflexivity]. destruct (a_split_at dj _ _) as [fm fmn]. cbn [fst snd].
  destruct (if has_match fm then _ else _) as [[]|?]; cbn [bind]; try reflexivity.
  destruct (next_match next fmn a_index_range); cbn [bind]; reflexivity.
Qed.
Lemma do_find_same is_sub s1 l : forall matched start prev,
  do_find is_sub s1 l matched start prev = (do x <- do_find_reported is_sub s1 l matched start prev ;; Ok (fst x)).
Proof.
  induction l as [|[[choice|] next] l IH]; intros matched start prev; cbn [ModelMatch.do_find ModelReport.do_find_reported]; [reflexivity| |reflexivity].
  destruct (negb (is_close_to_any _ _ _)).
  { rewrite IH. destruct (do_find_reported is_sub s1 l matched start prev) as [[[[ms mt] k] rows]|?]; reflexivity. }
  destruct (negb (nonempty _)); [reflexivity|]. rewrite (regular_same is_sub), (short_same is_sub).
  set (R := regular_reported _ _ _ _ _ _ _). set (S := short_reported _ _ _ _ _ _ _).
  assert (E : (if is_sub || (slen s1 - start <? slen (sq_text choice))%Z then (do x <- S ;; Ok (fst x)) else (do x <- R ;; Ok (fst x)))
    = (do x <- (if is_sub || (slen s1 - start <? slen (sq_text choice))%Z then S else R) ;; Ok (fst x))) by (destruct (is_sub || _); reflexivity).
  rewrite E. destruct (if is_sub || _ then S else R) as [[s r]|?]; cbn [bind fst]; [|reflexivity].
  destruct (sp_last s); [reflexivity|]. rewrite IH.
  destruct (do_find_reported is_sub s1 l _ _ _) as [[[[ms mt] k] rows]|?]; reflexivity.
Qed.
Lemma find_list_same is_sub l values : forall matched,
  find_list is_sub l values matched = (do x <- find_list_reported is_sub l values matched ;; Ok (fst x)).
Proof.
  induction values as [|s values IH]; intros matched; cbn [ModelMatch.find_list ModelReport.find_list_reported]; [reflexivity|].
  rewrite do_find_same. destruct (do_find_reported is_sub s l matched _ _) as [[[[ms mt] k] rows]|?]; cbn [bind fst]; [|reflexivity].
  rewrite IH. destruct (find_list_reported is_sub l values mt) as [[[[ms' mt'] ks] rows']|?]; reflexivity.
Qed.

(** every outcome of the matching of two texts fits these texts *)
Hypothesis blocks_valid : forall a b l, blocks a b = Ok l -> valid a b l.

Definition in_text (s1 : str) (start : Z) : Prop := (0 <= start <= slen s1)%Z.
Definition shows (r : row) : Prop := fm_ok (rw_fm_combined r) /\ fm_ok (rw_fm r) /\ fm_ok (rw_fm_next r).
Lemma in_start s1 : in_text s1 0.
Proof. split; [lia|apply slen_nonneg]. Qed.
Lemma cut_text s1 start : in_text s1 start -> py_slice s1 0 start ++ py_from s1 start = s1 /\ slen (py_slice s1 0 start) = start /\
  slen (py_from s1 start) = (slen s1 - start)%Z.
Proof.
  intros [H1 H2]. rewrite slice_pre_len, slice_post_len by lia. split; [|lia]. unfold py_from. rewrite !py_slice_pos by (unfold slen in *; lia).
  rewrite skipn_O. replace (Z.to_nat start - Z.to_nat 0) with (Z.to_nat start) by lia.
  rewrite (firstn_all2 (skipn _ _)); [apply firstn_skipn|]. rewrite skipn_length. unfold slen in *. lia.
Qed.
Lemma skip_nonneg s e : (0 <= e)%Z -> (0 <= skip_whitespaces sp s e)%Z.
Proof. unfold skip_whitespaces. lia. Qed.
Notation decided := (decided sp alpha blocks seq_filter choice_filter).
Notation search_rows := (search_rows sp alpha blocks seq_filter choice_filter).
Notation all_decided := (all_decided sp alpha blocks seq_filter choice_filter).
Lemma count_spaces_spec s : (forall k x, k < count_spaces sp s -> nth_error s k = Some x -> sp x = true) /\
  (count_spaces sp s < length s -> exists x, nth_error s (count_spaces sp s) = Some x /\ sp x = false) /\ count_spaces sp s <= length s.
Proof.
  induction s as [|c s (I1 & I2 & I3)]; cbn [count_spaces length]; [split; [lia|split; [lia|auto]]|]. destruct (sp c) eqn:E; cbn.
  - split; [|split; [intros H; apply I2; lia|lia]]. intros [|k] x Hk; cbn; [now intros [= <-]|]. apply I1. lia.
  - split; [lia|]. split; [eauto|lia].
Qed.
Lemma skip_spec s i : (0 <= i)%Z -> after_spaces sp s i (skip_whitespaces sp s i).
Proof.
  intros Hi. unfold skip_whitespaces, after_spaces. destruct (count_spaces_spec (skipn (Z.to_nat i) s)) as (C1 & C2 & C3).
  set (n := count_spaces sp (skipn (Z.to_nat i) s)) in *. rewrite skipn_length in C2, C3. split; [lia|]. split.
  - intros k x Hk E. apply (C1 (Z.to_nat k - Z.to_nat i) x); [lia|]. rewrite nth_skipn. rewrite <- E. f_equal. lia.
  - unfold slen. intros H. destruct C2 as (x & E & Hx); [lia|]. exists x. split; [|exact Hx]. rewrite nth_skipn in E. rewrite <- E. f_equal. lia.
Qed.
Lemma has_match_spec f : has_match f = true <-> something f.
Proof. pose proof (something_spec f) as H. destruct (has_match f); split; intros X; try discriminate; try contradiction; auto. Qed.
Lemma accept_spec (a b : res bool) (f : fmr) (x y : Z) (acc : bool) :
  (if has_match f then do v <- a ;; if v : bool then Ok true else do w <- b ;; Ok (w && (x <? y)%Z) else Ok false) = Ok acc ->
  (acc = true <-> something f /\ (a = Ok true \/ b = Ok true /\ (x < y)%Z)).
Proof.
  rewrite <- has_match_spec. destruct (has_match f); [|intros [= <-]; split; [discriminate|intros [H _]; discriminate]].
  destruct a as [[]|?]; cbn [bind]; [intros [= <-]; split; auto| |discriminate]. destruct b as [w|?]; cbn [bind]; [|discriminate].
  intros [= <-]. rewrite andb_true_iff, Z.ltb_lt. split; [intros [-> H]; auto|]. intros [_ [H|[[= ->] H]]]; [discriminate|auto].
Qed.
Lemma next_texts next f range nm : next_match next f range = Ok nm ->
  if has_match f then exists n, option_map sq_text next = Some n /\ texts nm = [n] else nm = [].
Proof.
  unfold next_match. destruct (has_match f); [|now intros [= <-]]. destruct next as [n|]; [|discriminate]. intros [= <-]. cbn. eauto.
Qed.
Definition step_row (is_sub : bool) (s1 : str) (start : Z) (prev : bool) (x : step * row) : Prop :=
  (decided s1 prev (snd x) /\ (sp_last (fst x) = false -> sp_prev (fst x) = prev || (rw_accepted (snd x) && negb (rw_short (snd x))))) /\
  row_of is_sub s1 (snd x) /\ shows (snd x) /\ rw_start (snd x) = start /\ rw_next_start (snd x) = sp_start (fst x) /\
  in_text s1 (sp_start (fst x)) /\ (stops_with (snd x) <-> sp_last (fst x) = true) /\ row_texts (snd x) (texts (sp_matches (fst x))).
Lemma combined_texts cs (next : option seqp) :
  match option_map sq_text next with Some n => cs ++ u " " ++ n | None => cs end = combined cs next.
Proof. destruct next; reflexivity. Qed.
Ltac solve_row := unfold row_of; cbn; rewrite ?combined_texts; repeat apply conj; intros; auto; try congruence;
  try (repeat match goal with H : _ \/ _ |- _ => destruct H | H : _ /\ _ |- _ => destruct H end; try discriminate; try lia; auto).
Lemma regular_row is_sub s1 choice next matched start prev x : in_text s1 start -> sq_text choice <> [] ->
  is_sub || (slen s1 - start <? slen (sq_text choice))%Z = false ->
  regular_reported is_sub s1 choice next matched start prev = Ok x -> step_row is_sub s1 start prev x.
Proof.
  intros Hs Hc Hsh. apply orb_false_iff in Hsh as [-> Hlt]. apply Z.ltb_ge in Hlt. destruct (cut_text s1 start Hs) as (C1 & C2 & C3).
  unfold ModelReport.regular_reported. rewrite combined_texts. set (cc := combined (sq_text choice) next) in *.
  destruct (blocks s1 cc) as [l|?] eqn:El; cbn [bind]; [|discriminate].
  set (fmc := mkF s1 cc l dj). assert (Oc : fm_ok fmc) by (split; [exact (blocks_valid _ _ _ El)|apply default_total]).
  destruct (split_b_ok alpha fmc (slen (sq_text choice)) Oc (slen_nonneg _)) as [O1 O2].
  pose proof (something_spec (fst (b_split_at dj fmc (slen (sq_text choice))))) as S1.
  pose proof (something_spec (snd (b_split_at dj fmc (slen (sq_text choice))))) as S2.
  set (fm := fst (b_split_at dj fmc (slen (sq_text choice)))) in *. set (fmn := snd (b_split_at dj fmc (slen (sq_text choice)))) in *.
  destruct (if has_match fm then _ else _) as [[]|?] eqn:Ea; cbn [bind]; [| |discriminate]; pose proof (accept_spec _ _ _ _ _ _ Ea) as Acc.
  - assert (Hm : has_match fm = true) by (destruct (has_match fm); [reflexivity|discriminate Ea]). rewrite Hm in S1.
    destruct (next_match next fmn b_index_range) as [nm|?] eqn:En; cbn [bind]; [|discriminate]. apply next_texts in En.
    set (e := skip_whitespaces _ _ _). intros [= <-]. unfold step_row. cbn [fst snd rw_start rw_next_start sp_start sp_last sp_matches].
    assert (He0 : (0 <= snd (a_index_range (if has_match fmn then fmn else fm)))%Z).
    { destruct (has_match fmn).
      - destruct O2 as [V _]. pose proof (a_range_facts fmn V) as (A & B & _). lia.
      - destruct O1 as [V _]. pose proof (a_range_facts fm V) as (A & B & _). lia. }
    assert (He : (0 <= e)%Z) by now apply skip_nonneg.
    split.
    { split; [|intros _; cbn; now rewrite orb_true_r]. unfold PropReport.decided. cbn [rw_short rw_fm_combined rw_combined rw_current rw_fm rw_fm_next rw_choice rw_accepted rw_end rw_next_start rw_start f_a f_b f_blocks].
      split; [reflexivity|]. split; [reflexivity|]. split; [exact El|]. split; [symmetry; apply surjective_pairing|]. split; [exact Acc|].
      intros _. exists e. split; [apply skip_spec; exact He0|]. destruct (slen s1 <=? e)%Z eqn:E; [left; apply Z.leb_le in E|right; apply Z.leb_gt in E]; auto. }
    split.
    { solve_row. destruct (slen s1 <=? e)%Z; congruence. }
    split; [exact (conj Oc (conj O1 O2))|]. split; [reflexivity|]. split; [reflexivity|].
    split. { destruct (slen s1 <=? e)%Z eqn:E; [exact Hs|]. apply Z.leb_gt in E. split; lia. }
    split. { unfold stops_with. cbn. split; [intros [_ [H|H]]; [discriminate|now injection H]|]. intros ->. auto. }
    unfold row_texts. cbn. destruct (has_match fmn).
    + destruct En as (n & E1 & E2). right. right. exists n. unfold texts in *. cbn. rewrite E2. auto.
    + subst nm. right. left. auto.
  - intros [= <-]. unfold step_row. cbn [fst snd rw_start rw_next_start sp_start sp_last sp_matches].
    split.
    { split; [|intros _; cbn; now rewrite orb_false_r]. unfold PropReport.decided. cbn [rw_short rw_fm_combined rw_combined rw_current rw_fm rw_fm_next rw_choice rw_accepted rw_end rw_next_start rw_start f_a f_b f_blocks].
      split; [reflexivity|]. split; [reflexivity|]. split; [exact El|]. split; [symmetry; apply surjective_pairing|]. split; [exact Acc|discriminate]. }
    split.
    { solve_row. }
    split; [exact (conj Oc (conj O1 O2))|]. split; [reflexivity|]. split; [reflexivity|].
    split; [exact Hs|]. split; [unfold stops_with; cbn; split; [intros [H _]; discriminate H|discriminate]|].
    left. auto.
Qed.
Lemma short_row is_sub s1 choice next matched start prev x : in_text s1 start -> sq_text choice <> [] ->
  is_sub || (slen s1 - start <? slen (sq_text choice))%Z = true ->
  short_reported is_sub s1 choice next matched start prev = Ok x -> step_row is_sub s1 start prev x.
Proof.
  intros Hs Hc Hsh. assert (Hlt : is_sub = true \/ (slen s1 - start < slen (sq_text choice))%Z).
  { apply orb_true_iff in Hsh as [H|H]; [now left|right; now apply Z.ltb_lt]. } destruct (cut_text s1 start Hs) as (C1 & C2 & C3).
  unfold ModelReport.short_reported. rewrite combined_texts. set (cc := combined (sq_text choice) next) in *.
  destruct (blocks cc _) as [l|?] eqn:El; cbn [bind]; [|discriminate].
  set (fmc := mkF cc (py_from s1 start) l dj). assert (Oc : fm_ok fmc) by (split; [exact (blocks_valid _ _ _ El)|apply default_total]).
  destruct (split_a_ok alpha fmc (slen (sq_text choice)) Oc (slen_nonneg _)) as [O1 O2].
  pose proof (something_spec (fst (a_split_at dj fmc (slen (sq_text choice))))) as S1.
  pose proof (something_spec (snd (a_split_at dj fmc (slen (sq_text choice))))) as S2.
  set (fm := fst (a_split_at dj fmc (slen (sq_text choice)))) in *. set (fmn := snd (a_split_at dj fmc (slen (sq_text choice)))) in *.
  destruct (if has_match fm then _ else _) as [[]|?] eqn:Ea; cbn [bind]; [| |discriminate]; pose proof (accept_spec _ _ _ _ _ _ Ea) as Acc.
  - assert (Hm : has_match fm = true) by (destruct (has_match fm); [reflexivity|discriminate Ea]). rewrite Hm in S1.
    destruct (next_match next fmn a_index_range) as [nm|?] eqn:En; cbn [bind]; [|discriminate]. apply next_texts in En.
    intros [= <-]. unfold step_row. cbn [fst snd rw_start rw_next_start sp_start sp_last sp_matches].
    split.
    { split; [|discriminate]. unfold PropReport.decided. cbn [rw_short rw_fm_combined rw_combined rw_current rw_fm rw_fm_next rw_choice rw_accepted rw_end rw_next_start rw_start f_a f_b f_blocks].
      split; [reflexivity|]. split; [reflexivity|]. split; [exact El|]. split; [symmetry; apply surjective_pairing|]. exact Acc. }
    split.
    { rewrite <- C3 in Hlt. solve_row. }
    split; [exact (conj Oc (conj O1 O2))|]. split; [reflexivity|]. split; [reflexivity|].
    split; [exact Hs|]. split; [unfold stops_with; cbn; split; auto|].
    unfold row_texts. cbn. destruct (has_match fmn).
    + destruct En as (n & E1 & E2). right. right. exists n. unfold texts in *. cbn. rewrite E2. auto.
    + subst nm. right. left. auto.
  - intros [= <-]. unfold step_row. cbn [fst snd rw_start rw_next_start sp_start sp_last sp_matches].
    split.
    { split; [|intros _; cbn; now rewrite orb_false_r]. unfold PropReport.decided. cbn [rw_short rw_fm_combined rw_combined rw_current rw_fm rw_fm_next rw_choice rw_accepted rw_end rw_next_start rw_start f_a f_b f_blocks].
      split; [reflexivity|]. split; [reflexivity|]. split; [exact El|]. split; [symmetry; apply surjective_pairing|]. exact Acc. }
    split.
    { rewrite <- C3 in Hlt. solve_row. }
    split; [exact (conj Oc (conj O1 O2))|]. split; [reflexivity|]. split; [reflexivity|].
    split; [exact Hs|]. split; [unfold stops_with; cbn; split; [intros [H _]; discriminate H|discriminate]|].
    left. auto.
Qed.
Lemma do_find_rows is_sub s1 l : forall matched start prev ms mt k rows, in_text s1 start ->
  do_find_reported is_sub s1 l matched start prev = Ok (ms, mt, k, rows) ->
  (goes_on start rows /\ Forall (row_of is_sub s1) rows /\ all_decided s1 prev rows) /\ Forall shows rows /\ rows_texts rows (texts ms).
Proof.
  induction l as [|[[choice|] next] l IH]; intros matched start prev ms mt k rows Hs; cbn [ModelReport.do_find_reported].
  - intros [= <- <- <- <-]. repeat split; try constructor. apply rows_texts_nil.
  - destruct (negb (is_close_to_any _ _ _)).
    { destruct (do_find_reported is_sub s1 l matched start prev) as [[[[ms' mt'] k'] rows']|?] eqn:E; cbn [bind]; [|discriminate].
      intros [= <- <- <- <-]. eapply IH; [exact Hs|exact E]. }
    destruct (sq_text choice) as [|c cs] eqn:Ec; cbn [nonempty negb].
    { intros [= <- <- <- <-]. repeat split; try constructor. apply rows_texts_nil. }
    rewrite <- Ec. assert (Hn : sq_text choice <> []) by congruence.
    destruct (if is_sub || _ then _ else _) as [[s r]|?] eqn:Es; cbn [bind]; [|discriminate].
    assert (St : step_row is_sub s1 start prev (s, r)).
    { destruct (is_sub || (slen s1 - start <? slen (sq_text choice))%Z) eqn:Ei;
        [exact (short_row _ _ _ _ _ _ _ _ Hs Hn Ei Es)|exact (regular_row _ _ _ _ _ _ _ _ Hs Hn Ei Es)]. }
    destruct St as ([D1 D2] & R1 & R2 & R3 & R4 & R5 & R6 & R7). cbn [fst snd] in *.
    destruct (sp_last s) eqn:El.
    + intros [= <- <- <- <-]. split; [cbn; auto 6|]. split; [auto|]. rewrite <- (app_nil_r (texts _)).
      apply rows_texts_cons; [exact R7|apply rows_texts_nil].
    + destruct (do_find_reported is_sub s1 l _ _ _) as [[[[ms' mt'] k'] rows']|?] eqn:E; cbn [bind]; [|discriminate].
      intros [= <- <- <- <-]. destruct (IH _ _ _ _ _ _ _ R5 E) as ((H1 & H2 & H2') & H3 & H4).
      split. { cbn. rewrite R4, <- D2 by reflexivity. split; [|auto]. split; [exact R3|]. split; [|exact H1]. intros Q. apply R6 in Q. discriminate. }
      split; [auto|]. unfold texts. rewrite map_app. now apply rows_texts_cons.
  - discriminate.
Qed.
Lemma find_list_rows is_sub l values : forall matched ms mt ks rows,
  find_list_reported is_sub l values matched = Ok (ms, mt, ks, rows) ->
  exists rowss, rows = concat rowss /\ Forall2 (search_rows is_sub) values rowss /\ Forall shows rows /\ rows_texts rows (texts ms).
Proof.
  induction values as [|s values IH]; intros matched ms mt ks rows; cbn [ModelReport.find_list_reported].
  - intros [= <- <- <- <-]. exists []. repeat split; try constructor. apply rows_texts_nil.
  - destruct (do_find_reported is_sub s l matched _ _) as [[[[ms1 mt1] k1] rows1]|?] eqn:E1; cbn [bind]; [|discriminate].
    destruct (find_list_reported is_sub l values mt1) as [[[[ms2 mt2] k2] rows2]|?] eqn:E2; cbn [bind]; [|discriminate].
    intros [= <- <- <- <-]. destruct (IH _ _ _ _ _ E2) as (rowss & -> & F & G & T).
    destruct (do_find_rows _ _ _ _ _ _ _ _ _ _ (in_start _) E1) as (H1 & H3 & H4).
    exists (rows1 :: rowss). split; [reflexivity|]. split; [constructor; [exact H1|exact F]|].
    split; [apply Forall_app; auto|]. unfold texts. rewrite map_app. now apply rows_texts_app.
Qed.
Lemma written_total rows : Forall shows rows -> forall id, exists w, written id rows = Ok w.
Proof.
  induction 1 as [|r rows (H1 & H2 & H3) H IH]; intros id; cbn [written]; [eauto|].
  destruct (shown_total _ H1) as [? ->]. destruct (shown_total _ H2) as [? ->]. destruct (shown_total _ H3) as [? ->]. cbn [bind].
  destruct (IH (id + 1)%Z) as [w ->]. cbn. eauto.
Qed.

(** Reporting changes nothing of what is found, and never fails. *)
Theorem C126_same is_sub name bonding value d f matched id r :
  find_next is_sub name bonding value d f matched = Ok r <->
  exists w, find_next_reported is_sub name bonding value d f matched id = Ok (r, w).
Proof.
  unfold ModelMatch.find_next, ModelReport.find_next_reported. destruct value as [s|values].
  - rewrite do_find_same. destruct (do_find_reported is_sub s (pairs d f) matched _ _) as [[[[ms mt] k] rows]|?] eqn:E; cbn [bind fst]; [|split; [discriminate|now intros (w & H)]].
    destruct (do_find_rows _ _ _ _ _ _ _ _ _ _ (in_start _) E) as (_ & H & _).
    destruct (written_total rows H id) as [w Hw]. rewrite Hw. cbn [bind]. split; [intros [= <-]; eauto|]. intros (w' & [= <- <-]). reflexivity.
  - rewrite find_list_same. destruct (find_list_reported is_sub (pairs d f) values matched) as [[[[ms mt] k] rows]|?] eqn:E; cbn [bind fst]; [|split; [discriminate|now intros (w & H)]].
    destruct (find_list_rows _ _ _ _ _ _ _ _ E) as (rowss & _ & _ & H & _).
    destruct (written_total rows H id) as [w Hw]. rewrite Hw. cbn [bind]. split; [intros [= <-]; eauto|]. intros (w' & [= <- <-]). reflexivity.
Qed.

(** The rows have ids one after the other; those of the search for each text go on where
    the one before stopped, up to the row with the end of the text; and they report just
    the matches that are found, except those of a bonding list with a single match. *)
Theorem C126_rows is_sub name bonding value d f matched id ms mt f' w :
  find_next_reported is_sub name bonding value d f matched id = Ok (ms, mt, f', w) ->
  map fst w = map (fun k => id + Z.of_nat k)%Z (seq 0 (length w)) /\
  (exists rowss, map snd w = concat rowss /\ Forall2 (search_rows is_sub) (value_list value) rowss) /\
  exists l, rows_texts (map snd w) l /\
    (texts ms = l \/ ms = [] /\ bonding = true /\ name <> u "author" /\ length l <= 1 /\ exists values, value = VMany values).
Proof.
  unfold ModelReport.find_next_reported. destruct value as [s|values].
  - destruct (do_find_reported is_sub s (pairs d f) matched _ _) as [[[[ms1 mt1] k] rows]|?] eqn:E; cbn [bind]; [|discriminate].
    destruct (do_find_rows _ _ _ _ _ _ _ _ _ _ (in_start _) E) as (H1 & _ & H4).
    destruct (written id rows) as [w'|?] eqn:Ew; cbn [bind]; [|discriminate]. intros [= <- <- <- <-]. destruct (written_ids _ _ _ Ew) as [W1 W2].
    rewrite W2, W1, <- (map_length snd w'), W1. split; [reflexivity|]. split.
    + exists [rows]. split; [cbn; now rewrite app_nil_r|]. constructor; [exact H1|constructor].
    + eauto.
  - destruct (find_list_reported is_sub (pairs d f) values matched) as [[[[ms1 mt1] k] rows]|?] eqn:E; cbn [bind]; [|discriminate].
    destruct (find_list_rows _ _ _ _ _ _ _ _ E) as (rowss & H1 & H2 & _ & H4).
    destruct (written id rows) as [w'|?] eqn:Ew; cbn [bind]; [|discriminate].
    destruct (written_ids _ _ _ Ew) as [W1 W2]. intros [= <- <- <- <-].
    rewrite W2, W1, <- (map_length snd w'), W1. split; [reflexivity|]. split; [eauto|].
    exists (texts ms1). split; [exact H4|]. destruct (negb bonding || Nat.ltb 1 (length ms1) || streq name (u "author")) eqn:Ek; [now left|].
    right. apply orb_false_iff in Ek as [Ek K3]. apply orb_false_iff in Ek as [K1 K2]. apply negb_false_iff in K1. apply Nat.ltb_ge in K2.
    apply streq_false in K3. unfold texts. rewrite map_length. eauto 6.
Qed.
End C126.

(* ---------------------------------------------------------------- *)
(** ** Examples *)
Definition ex_seqs : list seqp :=
  match sequences ascii_space ascii_alpha lower_ascii ex_doc with Ok l => l | Err _ => [] end.
Definition ex_reported (value : tvalue) := find_next_reported ascii_space ascii_alpha ex_blocks DEFAULT_SEQ_FILTER DEFAULT_CHOICE_FILTER
  DEFAULT_MAX_MATCH_GAP false (u "title") false value ex_doc (new_finder (mkGen [] ex_seqs)) [] 1.
Definition ex_cells (w : list (Z * row)) :=
  map (fun x => (fst x, rw_start (snd x), rw_next_start (snd x), rw_accepted (snd x), rw_short (snd x), rw_end (snd x))) w.
Lemma pair_parts {A B} (a c : A) (b d : B) : Some (a, b) = Some (c, d) -> a = c /\ b = d.
Proof. intros [= -> ->]. auto. Qed.
(** two rows: the first line with the start of the second, and the second line *)
Example C126_ex : exists ms mt f' w, ex_reported (VOne (u "about things a study")) = Ok (ms, mt, f', w) /\
  texts ms = [u "about things"; u "a study"; u "a study"] /\
  ex_cells w = [(1, 0, 8, true, false, Some false); (2, 8, 8, true, false, Some true)]%Z /\
  (exists rowss, map snd w = concat rowss /\ Forall2 (search_rows ascii_space ascii_alpha ex_blocks DEFAULT_SEQ_FILTER DEFAULT_CHOICE_FILTER false) [u "about things a study"] rowss) /\
  find_next ascii_space ascii_alpha ex_blocks DEFAULT_SEQ_FILTER DEFAULT_CHOICE_FILTER DEFAULT_MAX_MATCH_GAP false (u "title") false
    (VOne (u "about things a study")) ex_doc (new_finder (mkGen [] ex_seqs)) [] = Ok (ms, mt, f').
Proof.
  assert (V : forall a b l, ex_blocks a b = Ok l -> valid a b l).
  { intros a b l E. destruct (ex_blocks_total a b) as (l' & E' & H). congruence. }
  destruct (ex_reported (VOne (u "about things a study"))) as [[[[ms mt] f'] w]|?] eqn:E; [|vm_compute in E; discriminate E].
  exists ms, mt, f', w. split; [reflexivity|].
  assert (X : match ex_reported (VOne (u "about things a study")) with Ok (ms, _, _, w) => Some (texts ms, ex_cells w) | Err _ => None end
    = Some ([u "about things"; u "a study"; u "a study"], [(1, 0, 8, true, false, Some false); (2, 8, 8, true, false, Some true)]%Z))
    by (vm_compute; reflexivity).
  rewrite E in X. apply pair_parts in X as [X1 X2]. split; [exact X1|]. split; [exact X2|]. split.
  - unfold ex_reported in E. destruct (C126_rows _ _ _ _ _ _ V _ _ _ _ _ _ _ _ _ _ _ _ E) as (_ & H & _). exact H.
  - unfold ex_reported in E. rewrite (C126_same _ _ _ _ _ _ V _ _ _ _ _ _ _ 1%Z). eauto.
Qed.

Print Assumptions C126_same.
Print Assumptions C126_rows.
