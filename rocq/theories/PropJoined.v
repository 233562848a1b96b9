(** C13 and C14: joined texts, character ranges and pending sequences *)
From Verif Require Import Base ModelJoined.
Open Scope Z_scope.

(* ---------------------------------------------------------------- *)
(** ** Specification *)

(** [s] is at positions [r] of [text] *)
Definition found_at (text s : str) (r : irange) : Prop :=
  exists pre post, text = pre ++ s ++ post /\ r = (zlen pre, zlen pre + zlen s).
(** overlap of half open ranges *)
Definition overlaps (r q : irange) : bool := (fst r <? snd q) && (fst q <? snd r).
(** for proper ranges this is having a position in common *)
Lemma overlaps_common r q : fst r < snd r -> fst q < snd q ->
  (overlaps r q = true <-> exists p, fst r <= p < snd r /\ fst q <= p < snd q).
Proof.
  intros H1 H2. unfold overlaps. rewrite andb_true_iff, !Z.ltb_lt. split.
  - intros [A B]. exists (Z.max (fst r) (fst q)). lia.
  - intros (p & A & B). lia.
Qed.

(** items with the gap that follows each; the last gap does not count *)
Fixpoint glue (l : list (str * str)) : str :=
  match l with
  | [] => []
  | (x, y) :: l' => x ++ match l' with [] => [] | _ => y ++ glue l' end
  end.
(** what comes before the [i]-th item *)
Definition before (i : nat) (l : list (str * str)) : str :=
  flat_map (fun p => fst p ++ snd p) (firstn i l).
Definition spans (l : list (str * str)) : list irange :=
  map (fun i => let b := zlen (before i l) in (b, b + zlen (fst (nth i l ([], [])))))
    (seq 0 (length l)).

Lemma zlen_app {A} (a b : list A) : zlen (a ++ b) = zlen a + zlen b.
Proof. unfold zlen. rewrite app_length. lia. Qed.
Lemma zlen_nonneg {A} (a : list A) : 0 <= zlen a.
Proof. unfold zlen. lia. Qed.
Lemma zlen_nil {A} : zlen (@nil A) = 0.
Proof. reflexivity. Qed.

Fixpoint spans_from (start : Z) (l : list (str * str)) : list irange :=
  match l with
  | [] => []
  | (x, y) :: l' => (start, start + zlen x) :: spans_from (start + zlen x + zlen y) l'
  end.
Lemma spans_from_eq l : forall p, spans_from (zlen p) l =
  map (fun i => let b := zlen (p ++ before i l) in (b, b + zlen (fst (nth i l ([], [])))))
    (seq 0 (length l)).
Proof.
  induction l as [|[x y] l IH]; intros p; [reflexivity|].
  cbn [spans_from length seq map]. rewrite <- seq_shift, map_map.
  f_equal.
  - cbn. now rewrite app_nil_r.
  - replace (zlen p + zlen x + zlen y) with (zlen (p ++ x ++ y)) by (rewrite !zlen_app; lia).
    rewrite IH. apply map_ext. intros i. cbn. now rewrite <- !app_assoc.
Qed.
Lemma spans_eq l : spans_from 0 l = spans l.
Proof. exact (spans_from_eq l []). Qed.
Lemma spans_length l : length (spans l) = length l.
Proof. unfold spans. now rewrite map_length, seq_length. Qed.

Lemma glue_split l i x y : nth_error l i = Some (x, y) -> exists post, glue l = before i l ++ x ++ post.
Proof.
  revert i. induction l as [|[a b] l IH]; intros [|i] H; try discriminate.
  - injection H as -> ->. cbn. eauto.
  - cbn in H. destruct (IH i H) as [post E]. exists post. cbn [glue before firstn flat_map fst snd].
    destruct l as [|p l]; [destruct i; discriminate|]. rewrite E. unfold before. now rewrite <- !app_assoc.
Qed.
Lemma spans_nth l i r : nth_error (spans l) i = Some r ->
  exists x y, nth_error l i = Some (x, y) /\ r = (zlen (before i l), zlen (before i l) + zlen x) /\
    found_at (glue l) x r.
Proof.
  intros H. assert (Hi : (i < length l)%nat) by (rewrite <- spans_length; apply nth_error_Some; congruence).
  destruct (nth_error l i) as [[x y]|] eqn:E; [|apply nth_error_None in E; lia].
  exists x, y. split; [reflexivity|].
  unfold spans in H. rewrite nth_error_map in H.
  assert (Hs : nth_error (seq 0 (length l)) i = Some i).
  { rewrite (nth_error_nth' _ 0%nat) by (rewrite seq_length; lia). now rewrite seq_nth by lia. }
  rewrite Hs in H. cbn in H. rewrite (nth_error_nth l i ([], []) E) in H. cbn [fst] in H.
  injection H as <-. split; [reflexivity|].
  destruct (glue_split l i x y E) as [post Hg]. exists (before i l), post. auto.
Qed.

(* ---------------------------------------------------------------- *)
(** ** the code computes [glue] and [spans] (no padding) *)

Lemma join_glue sep l : join_str sep l = glue (map (fun x => (x, sep)) l).
Proof.
  induction l as [|x l IH]; [reflexivity|]. cbn [join_str map glue]. rewrite IH.
  destruct l; [now rewrite app_nil_r|reflexivity].
Qed.
Lemma ranges_sep_spans sep l : forall st, ranges_sep (zlen sep) st l = spans_from st (map (fun x => (x, sep)) l).
Proof. induction l as [|x l IH]; intros st; [reflexivity|]. cbn. now rewrite IH. Qed.

Lemma zip_glue : forall l w, length l = length w -> zip_concat l (clear_last w) = glue (combine l w).
Proof.
  induction l as [|x l IH]; intros [|y w] H; try discriminate; [reflexivity|].
  injection H as H. destruct w as [|z w].
  - destruct l; [|discriminate]. reflexivity.
  - destruct l as [|x' l]; [discriminate|].
    change (clear_last (y :: z :: w)) with (y :: clear_last (z :: w)).
    change (x ++ y ++ zip_concat (x' :: l) (clear_last (z :: w)) = x ++ y ++ glue (combine (x' :: l) (z :: w))).
    now rewrite IH.
Qed.
Lemma ranges_ws_spans : forall l w st, length l = length w ->
  ranges_ws 0 st l (clear_last w) = Ok (spans_from st (combine l w)).
Proof.
  induction l as [|x l IH]; intros [|y w] st H; try discriminate; [reflexivity|].
  injection H as H. destruct w as [|z w].
  - destruct l; [|discriminate]. reflexivity.
  - change (clear_last (y :: z :: w)) with (y :: clear_last (z :: w)). cbn [ranges_ws]. rewrite IH by exact H. cbn [bind]. cbn [combine spans_from]. do 3 f_equal. lia.
Qed.
Lemma map_nopad items : map (fun s : str => [] ++ s ++ []) items = items.
Proof. rewrite <- (map_id items) at 2. apply map_ext. intros s. apply app_nil_r. Qed.

(** gaps after the items *)
Definition gaps (sep : str) (ws : list ostr) (items : list str) : list str :=
  match ws with [] => map (fun _ => sep) items | _ => map (default_ws sep) ws end.

Theorem C13_join items sep ws : ws = [] \/ length ws = length items ->
  join_with_index_ranges items sep [] ws =
    Ok (glue (combine items (gaps sep ws items)), spans (combine items (gaps sep ws items))).
Proof.
  intros H. unfold join_with_index_ranges. rewrite map_nopad. change (zlen (@nil N)) with 0.
  rewrite <- spans_eq. destruct ws as [|w ws].
  - replace (zlen sep + 2 * 0) with (zlen sep) by lia. rewrite ranges_sep_spans, join_glue. unfold gaps.
    assert (E : combine items (map (fun _ => sep) items) = map (fun x => (x, sep)) items)
      by (clear; induction items; cbn; congruence).
    now rewrite E.
  - destruct H as [H|H]; [discriminate|]. unfold gaps.
    assert (Hl : length items = length (map (default_ws sep) (w :: ws))) by (rewrite map_length; lia).
    rewrite ranges_ws_spans by exact Hl. cbn [bind].
    now rewrite zip_glue by exact Hl.
Qed.

(** With the default padding every recorded range is where the item is in the
    joined text, and its start is the total length of the items and gaps before. *)
Theorem C13_ranges items sep ws text rs i r :
  ws = [] \/ length ws = length items ->
  join_with_index_ranges items sep [] ws = Ok (text, rs) ->
  nth_error rs i = Some r ->
  exists x, nth_error items i = Some x /\ found_at text x r /\
    fst r = zlen (before i (combine items (gaps sep ws items))).
Proof.
  intros H Hj Hr. rewrite (C13_join items sep ws H) in Hj. injection Hj as <- <-.
  destruct (spans_nth _ _ _ Hr) as (x & y & H1 & H2 & H3).
  exists x. assert (Hx : nth_error items i = Some x).
  { clear -H1. revert i H1. generalize (gaps sep ws items) as g.
    induction items as [|a items IH]; intros [|b g] [|i] H1; try discriminate.
    - now injection H1 as ->.
    - exact (IH g i H1). }
  split; [exact Hx|]. split; [exact H3|]. now rewrite H2.
Qed.
Theorem C13_all_items items sep ws text rs :
  ws = [] \/ length ws = length items ->
  join_with_index_ranges items sep [] ws = Ok (text, rs) -> length rs = length items.
Proof.
  intros H Hj. rewrite (C13_join items sep ws H) in Hj. injection Hj as <- <-.
  rewrite spans_length, combine_length. unfold gaps.
  destruct ws; [rewrite map_length; lia|]. destruct H; [discriminate|]. rewrite map_length. lia.
Qed.
(** it fails exactly for a non-empty white space list that is too short *)
Theorem C13_error items sep pad ws :
  (exists e, join_with_index_ranges items sep pad ws = Err e) <-> (0 < length ws < length items)%nat.
Proof.
  assert (R : forall l w st, (exists r, ranges_ws (zlen pad) st l w = Ok r) /\ (length l <= length w)%nat \/
    (exists e, ranges_ws (zlen pad) st l w = Err e) /\ (length w < length l)%nat).
  { induction l as [|x l IH]; intros [|y w] st; cbn [ranges_ws length].
    - left. split; [eauto|lia]. - left. split; [eauto|lia]. - right. split; [eauto|lia].
    - destruct (IH w (st + zlen x + zlen y + 2 * zlen pad)) as [[[r ->] H]|[[e ->] H]]; cbn [bind].
      + left. split; [eauto|lia]. + right. split; [eauto|lia]. }
  assert (CL : forall l, length (clear_last l) = length l).
  { induction l as [|x l IH]; [reflexivity|]. cbn [clear_last]. destruct l; [reflexivity|]. cbn [length] in *. lia. }
  unfold join_with_index_ranges. destruct ws as [|w ws].
  - split; [intros [e H]; discriminate|cbn; lia].
  - destruct (R (map (fun s => pad ++ s ++ pad) items) (clear_last (map (default_ws sep) (w :: ws))) (zlen pad))
      as [[[r E] H]|[[e E] H]]; rewrite E; cbn [bind]; rewrite map_length, CL, map_length in H.
    + split; [intros [e2 H2]; discriminate|intros H2; exfalso; unfold ostr, str in *; cbn [length] in *; lia].
    + split; [intros _; unfold ostr, str in *; cbn [length] in *; lia|eauto].
Qed.

(** With any padding the range of the first item is already wrong. *)
Theorem C13_pad_refuted items sep pad ws text rs x r :
  pad <> [] -> join_with_index_ranges items sep pad ws = Ok (text, rs) ->
  nth_error items 0 = Some x -> nth_error rs 0 = Some r -> ~ found_at text x r.
Proof.
  intros Hp Hj Hx Hr (pre & post & _ & E). destruct items as [|x' items]; [discriminate|].
  injection Hx as ->. assert (Er : r = (zlen pad, zlen pad + zlen (pad ++ x ++ pad))).
  { unfold join_with_index_ranges in Hj. destruct ws as [|w ws].
    - injection Hj as <- <-. now injection Hr as <-.
    - cbn [map] in Hj. destruct (clear_last _) as [|y w']; [discriminate|]. cbn [ranges_ws] in Hj.
      destruct (ranges_ws _ _ _ _) as [rr|]; [|discriminate]. injection Hj as <- <-.
      now injection Hr as <-. }
  rewrite Er in E. injection E as E1 E2. rewrite !zlen_app in E2.
  destruct pad; [congruence|]. unfold zlen in *. cbn [length] in *. lia.
Qed.

(* ---------------------------------------------------------------- *)
(** ** Selection *)

(** ranges in order *)
Fixpoint starts_sorted (rs : list irange) : Prop :=
  match rs with
  | [] => True
  | r :: rs' => Forall (fun r' => fst r <= fst r') rs' /\ starts_sorted rs'
  end.
Definition indexed {A} (l : list A) : list (nat * A) := combine (seq 0 (length l)) l.

Lemma between_filter rs q : starts_sorted rs -> forall i,
  between_from i rs q = filter (fun ir => overlaps (snd ir) q) (combine (seq i (length rs)) rs).
Proof.
  induction rs as [|[s e] rs IH]; intros Hs i; [reflexivity|]. destruct Hs as [H1 Hs].
  cbn [between_from length seq combine filter snd]. unfold overlaps at 1. cbn [fst snd].
  rewrite Z.geb_leb, Z.gtb_ltb. destruct (Z.leb_spec (snd q) s) as [Hc|Hc].
  - replace (s <? snd q) with false by (symmetry; apply Z.ltb_ge; lia). cbn [andb]. symmetry.
    assert (G : forall (k : nat) l, Forall (fun r' => s <= fst r') l ->
      filter (fun ir : nat * irange => overlaps (snd ir) q) (combine (seq k (length l)) l) = []).
    { intros k l. revert k. induction l as [|r l IHl]; intros k Hl; [reflexivity|].
      inversion Hl; subst. cbn [length seq combine filter snd]. rewrite IHl by assumption. unfold overlaps.
      replace (fst r <? snd q) with false by (symmetry; apply Z.ltb_ge; cbn in *; lia). reflexivity. }
    apply G. exact H1.
  - replace (s <? snd q) with true by (symmetry; apply Z.ltb_lt; lia). cbn [andb].
    rewrite IH by exact Hs. reflexivity.
Qed.
Lemma spans_sorted l : starts_sorted (spans l).
Proof.
  rewrite <- spans_eq. generalize 0 as st.
  assert (G : forall l st, Forall (fun r => st <= fst r) (spans_from st l)).
  { clear l. intros l. induction l as [|[x y] l IH]; intros st; [constructor|]. cbn [spans_from]. constructor; [cbn; lia|].
    eapply Forall_impl; [|apply IH]. cbn. intros r H. pose proof (zlen_nonneg x). pose proof (zlen_nonneg y). lia. }
  induction l as [|[x y] l IH]; intros st; [exact I|]. cbn [spans_from starts_sorted fst]. split; [|apply IH].
  eapply Forall_impl; [|apply G]. cbn. intros r H. pose proof (zlen_nonneg x). pose proof (zlen_nonneg y). lia.
Qed.

(** Selecting by a character range: exactly the items whose range overlaps it, in
    order. *)
Theorem C13_between items sep ws text rs q :
  ws = [] \/ length ws = length items ->
  join_with_index_ranges items sep [] ws = Ok (text, rs) ->
  indices_between rs q = filter (fun ir => overlaps (snd ir) q) (indexed rs).
Proof.
  intros H Hj. rewrite (C13_join items sep ws H) in Hj. injection Hj as <- <-.
  apply between_filter, spans_sorted.
Qed.

Section Tokens.
Context {A : Type}.
Implicit Types q : seqw A.

(** tokens with their ranges in the text of the sequence *)
Definition pieces q : list (str * str) := map (fun t => (w_str t, w_ws t)) q.
Definition placed q : list (wtoken A * irange) := combine q (spans (pieces q)).

Lemma combine_pieces q : combine (map w_str q) (map w_ws q) = pieces q.
Proof. unfold pieces. induction q; cbn; congruence. Qed.
Lemma seq_joined_ok q : seq_joined q = Ok (glue (pieces q), spans (pieces q)).
Proof.
  unfold seq_joined. rewrite C13_join by (right; now rewrite !map_length).
  assert (E : gaps (u " ") (map (fun t : wtoken A => Some (w_ws t)) q) (map w_str q) = map w_ws q).
  { unfold gaps. destruct q as [|t q]; [reflexivity|]. cbn [map default_ws]. f_equal. now rewrite map_map. }
  now rewrite E, combine_pieces.
Qed.
Lemma seq_text_eq q : seq_text q = glue (pieces q).
Proof. unfold seq_text. now rewrite seq_joined_ok. Qed.
Lemma seq_ranges_eq q : seq_ranges q = spans (pieces q).
Proof. unfold seq_ranges. now rewrite seq_joined_ok. Qed.

Lemma items_between_eq {B} (items : list B) rs r : length items = length rs -> starts_sorted rs ->
  items_between items rs r = filter (fun p => overlaps (snd p) r) (combine items rs).
Proof.
  intros Hl Hs. unfold items_between, indices_between. rewrite between_filter by exact Hs.
  assert (G : forall (its0 its : list B) (rs0 : list irange), length its = length rs0 ->
    flat_map (fun ir : nat * irange => match nth_error (its0 ++ its) (fst ir) with Some a => [(a, snd ir)] | None => [] end)
      (filter (fun ir => overlaps (snd ir) r) (combine (seq (length its0) (length rs0)) rs0)) =
    filter (fun p => overlaps (snd p) r) (combine its rs0)).
  { intros its0 its. revert its0. induction its as [|x its IH]; intros its0 [|y rs0] H; try discriminate; [reflexivity|].
    injection H as H. cbn [length seq combine filter snd].
    specialize (IH (its0 ++ [x]) rs0 H). rewrite app_length in IH. cbn [length] in IH.
    rewrite Nat.add_1_r, <- app_assoc in IH. cbn [app] in IH.
    destruct (overlaps y r); cbn [flat_map fst]; [|exact IH].
    rewrite nth_error_app2, Nat.sub_diag by lia. cbn [nth_error app snd]. now rewrite IH. }
  exact (G [] items rs Hl).
Qed.
Lemma pieces_length q : length (pieces q) = length q.
Proof. apply map_length. Qed.

Theorem C13_sequence q r :
  tokens_between q r = map (fun p => w_tok (fst p)) (filter (fun p => overlaps (snd p) r) (placed q)).
Proof.
  unfold tokens_between, placed. rewrite seq_ranges_eq.
  rewrite items_between_eq; [reflexivity| |apply spans_sorted].
  now rewrite spans_length, pieces_length.
Qed.
Lemma placed_tokens q : map fst (placed q) = q.
Proof.
  unfold placed. assert (H : length q = length (spans (pieces q))) by now rewrite spans_length, pieces_length.
  revert H. generalize (spans (pieces q)) as s. induction q as [|t q IH]; intros [|x s] H; try discriminate; [reflexivity|].
  cbn. f_equal. apply IH. now injection H.
Qed.
Lemma placed_found q : Forall (fun p => found_at (seq_text q) (w_str (fst p)) (snd p)) (placed q).
Proof.
  apply Forall_forall. intros [t r] H. cbn [fst snd]. apply In_nth_error in H as [i H].
  assert (H1 : nth_error q i = Some t /\ nth_error (spans (pieces q)) i = Some r).
  { clear -H. unfold placed in H. revert i H. generalize (spans (pieces q)) as s.
    induction q as [|x q IH]; intros [|y s] [|i] H; try discriminate.
    - injection H as -> ->. auto.
    - exact (IH s i H). }
  destruct H1 as [H1 H2]. rewrite seq_text_eq.
  destruct (spans_nth _ _ _ H2) as (x & y & E1 & E2 & E3).
  unfold pieces in E1. rewrite nth_error_map, H1 in E1. injection E1 as <- <-. exact E3.
Qed.

(* several sequences *)
Definition shift (d : Z) (p : wtoken A * irange) : wtoken A * irange :=
  (fst p, (fst (snd p) + d, snd (snd p) + d)).
Definition all_placed (sep : str) (qs : list (seqw A)) : list (wtoken A * irange) :=
  flat_map (fun p => map (shift (fst (snd p))) (placed (fst p)))
    (combine qs (spans (map (fun q => (seq_text q, sep)) qs))).

Lemma seqs_joined_eq sep qs :
  seqs_joined sep [] qs = (glue (map (fun q => (seq_text q, sep)) qs), spans (map (fun q => (seq_text q, sep)) qs)).
Proof.
  unfold seqs_joined. rewrite C13_join by now left.
  assert (E : combine (map seq_text qs) (gaps sep [] (map seq_text qs)) = map (fun q => (seq_text q, sep)) qs).
  { unfold gaps. rewrite map_map. induction qs; cbn; congruence. }
  now rewrite E.
Qed.

Lemma found_inside text s r : found_at text s r -> 0 <= fst r /\ fst r <= snd r <= zlen text.
Proof.
  intros (pre & post & -> & ->). cbn [fst snd]. rewrite !zlen_app.
  pose proof (zlen_nonneg pre). pose proof (zlen_nonneg s). pose proof (zlen_nonneg post). lia.
Qed.
Lemma found_shift text s r text2 d : found_at text s r -> found_at text2 text (d, d + zlen text) ->
  found_at text2 s (fst r + d, snd r + d).
Proof.
  intros (pre & post & -> & ->) (pre2 & post2 & -> & E). injection E as -> E.
  exists (pre2 ++ pre), (post ++ post2). split; [now rewrite <- !app_assoc|].
  cbn [fst snd]. rewrite zlen_app. f_equal; lia.
Qed.

Lemma in_combine_spans sep qs q r : In (q, r) (combine qs (spans (map (fun q => (seq_text q, sep)) qs))) ->
  found_at (seqs_text sep [] qs) (seq_text q) r.
Proof.
  intros H. apply In_nth_error in H as [i H]. unfold seqs_text. rewrite seqs_joined_eq. cbn [fst].
  assert (H1 : nth_error qs i = Some q /\ nth_error (spans (map (fun q => (seq_text q, sep)) qs)) i = Some r).
  { revert i H. generalize (spans (map (fun q => (seq_text q, sep)) qs)) as s. clear.
    induction qs as [|x qs IH]; intros [|y s] [|i] H; try discriminate.
    - injection H as -> ->. auto.
    - exact (IH s i H). }
  destruct H1 as [H1 H2]. destruct (spans_nth _ _ _ H2) as (x & y & E1 & E2 & E3).
  rewrite nth_error_map, H1 in E1. injection E1 as <- <-. exact E3.
Qed.

(** Every token of the sequences has a range in the joined text where its own
    text is found; selecting by a range returns exactly the tokens whose range
    overlaps it, in order. *)
Theorem C13_tokens sep (qs : list (seqw A)) :
  map fst (all_placed sep qs) = concat qs /\
  Forall (fun p => found_at (seqs_text sep [] qs) (w_str (fst p)) (snd p)) (all_placed sep qs) /\
  (forall r, all_tokens_between sep [] qs r =
     map (fun p => w_tok (fst p)) (filter (fun p => overlaps (snd p) r) (all_placed sep qs))).
Proof.
  split; [|split].
  - unfold all_placed.
    assert (H : length qs = length (spans (map (fun q => (seq_text q, sep)) qs))) by now rewrite spans_length, map_length.
    revert H. generalize (spans (map (fun q => (seq_text q, sep)) qs)) as s.
    induction qs as [|q qs IH]; intros [|x s] H; try discriminate; [reflexivity|].
    cbn [combine flat_map concat]. rewrite map_app, map_map. cbn [fst snd shift].
    change (fun x0 : wtoken A * irange => fst x0) with (@fst (wtoken A) irange). rewrite placed_tokens. f_equal. apply IH. now injection H.
  - apply Forall_forall. intros p Hp. unfold all_placed in Hp. apply in_flat_map in Hp as ([q r] & H1 & H2).
    apply in_map_iff in H2 as ([t r2] & <- & H2). cbn [fst snd shift].
    pose proof (in_combine_spans _ _ _ _ H1) as Hf.
    pose proof (placed_found q) as Hq. rewrite Forall_forall in Hq. specialize (Hq _ H2). cbn [fst snd] in Hq.
    eapply found_shift; [exact Hq|]. destruct Hf as (pre & post & E & ->). cbn [fst].
    exists pre, post. auto.
  - intros r. unfold all_tokens_between, all_placed. rewrite seqs_joined_eq. cbn [snd].
    rewrite items_between_eq; [|now rewrite spans_length, map_length|apply spans_sorted].
    pose proof (fun q r => in_combine_spans sep qs q r) as Hin. revert Hin.
    generalize (combine qs (spans (map (fun q => (seq_text q, sep)) qs))) as l.
    induction l as [|[q rq] l IH]; intros Hin; [reflexivity|]. cbn [filter flat_map fst snd].
    rewrite filter_app, map_app, <- IH by (intros; apply Hin; now right). clear IH.
    assert (E : filter (fun p => overlaps (snd p) r) (map (shift (fst rq)) (placed q)) =
      map (shift (fst rq)) (filter (fun p => overlaps (snd p) (fst r - fst rq, snd r - fst rq)) (placed q))).
    { induction (placed q) as [|p l0 IH0]; [reflexivity|]. cbn [map filter]. rewrite IH0.
      assert (E0 : overlaps (snd (shift (fst rq) p)) r = overlaps (snd p) (fst r - fst rq, snd r - fst rq)).
      { unfold overlaps, shift. cbn [fst snd]. apply eq_true_iff_eq. rewrite !andb_true_iff, !Z.ltb_lt. lia. }
      rewrite E0. now destruct (overlaps _ (_, _)). }
    rewrite E, map_map. cbn [fst snd shift]. rewrite <- C13_sequence.
    destruct (overlaps rq r) eqn:Eo.
    + reflexivity.
    + rewrite C13_sequence.
      assert (En : filter (fun p => overlaps (snd p) (fst r - fst rq, snd r - fst rq)) (placed q) = []).
      { pose proof (placed_found q) as Hq. pose proof (Hin q rq (or_introl eq_refl)) as Hf.
        revert Hq. generalize (placed q) as pl. induction pl as [|p pl IHp]; intros Hq; [reflexivity|].
        inversion Hq as [|? ? Hp Hq']; subst. cbn [filter]. rewrite (IHp Hq').
        destruct (overlaps (snd p) _) eqn:Ep; [|reflexivity]. exfalso.
        apply found_inside in Hp. destruct Hf as (pre & post & _ & ->). unfold overlaps in *. cbn [fst snd] in *.
        apply andb_false_iff in Eo. apply andb_true_iff in Ep. rewrite !Z.ltb_lt in Ep. rewrite !Z.ltb_ge in Eo. lia. }
      now rewrite En.
Qed.

(** the wrapper of the complex matcher *)
Definition core_placed q : list (wtoken A * irange) :=
  combine q (spans (map (fun t => (w_str t, u " ")) q)).
Theorem C13_core q :
  map fst (core_placed q) = q /\
  Forall (fun p => found_at (core_text q) (w_str (fst p)) (snd p)) (core_placed q) /\
  (forall r, core_tokens_between q r =
     map (fun p => w_tok (fst p)) (filter (fun p => overlaps (snd p) r) (core_placed q))).
Proof.
  assert (Hl : length q = length (spans (map (fun t => (w_str t, u " ")) q))) by now rewrite spans_length, map_length.
  split; [|split].
  - unfold core_placed. revert Hl. generalize (spans (map (fun t => (w_str t, u " ")) q)) as s.
    induction q as [|t q IH]; intros [|x s] H; try discriminate; [reflexivity|].
    cbn. f_equal. apply IH. now injection H.
  - apply Forall_forall. intros [t r] H. cbn [fst snd]. apply In_nth_error in H as [i H].
    assert (H1 : nth_error q i = Some t /\ nth_error (spans (map (fun t => (w_str t, u " ")) q)) i = Some r).
    { clear -H. unfold core_placed in H. revert i H. generalize (spans (map (fun t => (w_str t, u " ")) q)) as s.
      induction q as [|x q IH]; intros [|y s] [|i] H; try discriminate.
      - injection H as -> ->. auto.
      - exact (IH s i H). }
    destruct H1 as [H1 H2]. unfold core_text. rewrite join_glue, map_map.
    destruct (spans_nth _ _ _ H2) as (x & y & E1 & E2 & E3).
    rewrite nth_error_map, H1 in E1. injection E1 as <- <-. exact E3.
  - intros r. unfold core_tokens_between, core_placed. rewrite <- spans_eq. clear Hl.
    assert (N0 : forall (l : list (wtoken A * irange)) st, Forall (fun p => st <= fst (snd p)) l -> snd r <= st ->
      filter (fun p => overlaps (snd p) r) l = []).
    { intros l st Hf Hst. induction Hf as [|p l Hp Hf IH]; [reflexivity|]. cbn [filter].
      assert (E : overlaps (snd p) r = false).
      { unfold overlaps. apply andb_false_iff. left. apply Z.ltb_ge. lia. }
      unfold irange in *. rewrite E. exact IH. }
    assert (Hge : forall (l : seqw A) st, Forall (fun p => st <= fst (snd p))
      (combine l (spans_from st (map (fun t => (w_str t, u " ")) l)))).
    { induction l as [|t l IH]; intros st; [constructor|]. cbn [map spans_from combine]. constructor; [cbn; lia|].
      eapply Forall_impl; [|apply IH]. cbn. intros p Hp. pose proof (zlen_nonneg (w_str t)).
      change (zlen (u " ")) with 1 in Hp. lia. }
    generalize 0 as st. induction q as [|t q IH]; intros st; [reflexivity|].
    cbn [core_tokens_go map spans_from combine filter]. rewrite Z.geb_leb, Z.gtb_ltb.
    change (zlen (u " ")) with 1. unfold overlaps at 1. cbn [fst snd].
    destruct (Z.leb_spec (snd r) st).
    + replace (st <? snd r) with false by (symmetry; apply Z.ltb_ge; lia). cbn [andb].
      rewrite (N0 _ (st + zlen (w_str t) + 1)); [reflexivity|exact (Hge q (st + zlen (w_str t) + 1))|].
      pose proof (zlen_nonneg (w_str t)). lia.
    + replace (st <? snd r) with true by (symmetry; apply Z.ltb_lt; lia). cbn [andb].
      destruct (fst r <? st + zlen (w_str t)); cbn [map fst]; rewrite IH; reflexivity.
Qed.
End Tokens.

(** the recorded ranges do not overlap and are in order *)
Theorem C13_disjoint l i j ri rj : (i < j)%nat ->
  nth_error (spans l) i = Some ri -> nth_error (spans l) j = Some rj -> snd ri <= fst rj.
Proof.
  intros Hij Hi Hj. destruct (spans_nth _ _ _ Hi) as (x & y & E1 & -> & _).
  destruct (spans_nth _ _ _ Hj) as (x' & y' & E2 & -> & _). cbn [fst snd].
  clear Hi Hj E2 x' y'. revert i j Hij E1. unfold before.
  induction l as [|p l IH]; intros [|i] [|j] Hij E1; try discriminate; try lia.
  - injection E1 as ->. cbn [firstn flat_map fst snd]. rewrite !zlen_app, zlen_nil.
    pose proof (zlen_nonneg y). pose proof (zlen_nonneg (flat_map (fun p => fst p ++ snd p) (firstn j l))). lia.
  - cbn [firstn flat_map]. rewrite !zlen_app. specialize (IH i j ltac:(lia) E1). lia.
Qed.

Open Scope string_scope.
Open Scope list_scope.
Definition ex_q1 : seqw nat := [mkW 1%nat (u "ab") (u ""); mkW 2%nat (u ",") (u " "); mkW 3%nat (u "cd") (u " ")].
Definition ex_q2 : seqw nat := [mkW 4%nat (u "e") (u " "); mkW 5%nat (u "") (u " "); mkW 6%nat (u "fg") (u "")].
Example C13_ex_text : seqs_text [10%N] [] [ex_q1; ex_q2] = u "ab, cd" ++ [10%N] ++ u "e  fg".
Proof. reflexivity. Qed.
Example C13_ex_between : all_tokens_between [10%N] [] [ex_q1; ex_q2] (1, 8) = [1; 2; 3; 4]%nat.
Proof. reflexivity. Qed.
Example C13_ex_between2 : all_tokens_between [10%N] [] [ex_q1; ex_q2] (4, 11) = [3; 4; 5; 6]%nat.
Proof. reflexivity. Qed.
Example C13_ex_core : core_text ex_q1 = u "ab , cd" /\ core_tokens_between ex_q1 (3, 6) = [2; 3]%nat.
Proof. split; reflexivity. Qed.
Example C13_ex_pad : join_with_index_ranges [u "ab"; u "c"] (u " ") (u "|") [] =
  Ok (u "|ab| |c|", [(1, 5); (8, 11)]).
Proof. reflexivity. Qed.

(* ---------------------------------------------------------------- *)
(** ** C14 *)
Section Runs.
Context {B : Type}.
Variable tagged : B -> bool.

(** [Runs true l rs]: [rs] are the maximal runs of untagged elements of [l], with
    an untagged element allowed at the start; [Runs false l rs]: [l] is empty or
    starts with a tagged element. *)
Inductive Runs : bool -> list B -> list (list B) -> Prop :=
| Runs_nil b : Runs b [] []
| Runs_tagged b t l rs : tagged t = true -> Runs true l rs -> Runs b (t :: l) rs
| Runs_run r l rs : r <> [] -> Forall (fun t => tagged t = false) r -> Runs false l rs ->
    Runs true (r ++ l) (r :: rs).

(** there is only one such decomposition *)
Lemma Runs_false_head l rs : Runs false l rs -> match l with [] => True | t :: _ => tagged t = true end.
Proof. inversion 1; subst; auto. Qed.
Lemma Runs_run_unique r l r' l' : Forall (fun t => tagged t = false) r -> Forall (fun t => tagged t = false) r' ->
  match l with [] => True | t :: _ => tagged t = true end ->
  match l' with [] => True | t :: _ => tagged t = true end ->
  r ++ l = r' ++ l' -> r = r' /\ l = l'.
Proof.
  revert r'. induction r as [|x r IH]; intros [|x' r'] H H' Hl Hl' E; cbn in E.
  - auto.
  - subst l. inversion H'; subst. congruence.
  - subst l'. inversion H; subst. congruence.
  - injection E as -> E. inversion H; inversion H'; subst. destruct (IH r') as [-> ->]; auto.
Qed.
Theorem C14_unique b l rs : Runs b l rs -> forall rs', Runs b l rs' -> rs = rs'.
Proof.
  intros H. induction H as [b|b t l rs Ht H IH|r l rs Hr Hf H IH]; intros rs' H'.
  - inversion H' as [| |r l rs0 Hr Hf H0 E]; subst; [reflexivity|]. destruct r; [congruence|discriminate].
  - remember (t :: l) as m eqn:Em. destruct H' as [b'|b' t' l' rs0 Ht' H0|r' l' rs0 Hr' Hf' H0]; [discriminate| |].
    + injection Em as -> ->. auto.
    + destruct r' as [|x r']; [congruence|]. injection Em as -> _. inversion Hf'; subst. congruence.
  - remember (r ++ l) as m eqn:Em. destruct H' as [b'|b' t' l' rs0 Ht' H0|r' l' rs0 Hr' Hf' H0].
    + symmetry in Em. apply app_eq_nil in Em as [Em _]. congruence.
    + destruct r as [|x r]; [congruence|]. injection Em as -> ->. inversion Hf; subst. congruence.
    + destruct (Runs_run_unique r' l' r l) as [-> ->]; auto;
        [eapply Runs_false_head; eassumption|eapply Runs_false_head; eassumption|].
      f_equal. auto.
Qed.

Lemma runs_go_spec l : forall cur, Forall (fun t => tagged t = false) cur ->
  Runs true (cur ++ l) (runs_go tagged cur l).
Proof.
  induction l as [|t l IH]; intros cur Hc; cbn [runs_go].
  - destruct cur as [|c cur]; [constructor|]. apply (Runs_run (c :: cur)); [discriminate|exact Hc|constructor].
  - destruct (tagged t) eqn:Et; cbn [negb].
    + destruct cur as [|c cur]; [cbn; apply Runs_tagged; [exact Et|]; exact (IH [] Hc)|].
      apply (Runs_run (c :: cur)); [discriminate|exact Hc|]. apply Runs_tagged; [exact Et|]. apply (IH []). constructor.
    + replace (cur ++ t :: l) with ((cur ++ [t]) ++ l) by now rewrite <- app_assoc.
      apply IH, Forall_app. auto.
Qed.

(** The pending sequences of a (non-empty) sequence are its maximal untagged runs. *)
Theorem C14_runs l : l <> [] -> Runs true l (untagged_sub_sequences tagged l).
Proof.
  intros Hl. unfold untagged_sub_sequences. destruct (Nat.eqb_spec (length (filter tagged l)) 0) as [H0|H0].
  - rewrite <- (app_nil_r l) at 1. apply Runs_run; [exact Hl| |constructor].
    apply length_zero_iff_nil in H0. apply Forall_forall. intros t Ht. destruct (tagged t) eqn:E; [|reflexivity].
    assert (In t (filter tagged l)) by (apply filter_In; auto). rewrite H0 in *. contradiction.
  - destruct (Nat.eqb_spec (length (filter tagged l)) (length l)) as [H1|H1].
    + assert (Hall : Forall (fun t => tagged t = true) l).
      { clear -H1. induction l as [|t l IH]; [constructor|]. cbn [filter] in H1. destruct (tagged t) eqn:E.
        - constructor; [exact E|]. apply IH. cbn in H1. lia.
        - exfalso. cbn in H1. assert (length (filter tagged l) <= length l)%nat; [|lia].
          clear. induction l as [|t l IH]; cbn; [lia|]. destruct (tagged t); cbn; lia. }
      clear -Hall. induction Hall; [constructor|]. apply Runs_tagged; assumption.
    + exact (runs_go_spec l [] (Forall_nil _)).
Qed.

Lemma Runs_concat b l rs : Runs b l rs -> concat rs = filter (fun t => negb (tagged t)) l.
Proof.
  induction 1 as [b|b t l rs Ht H IH|r l rs Hr Hf H IH]; cbn [concat filter]; [reflexivity| |].
  - now rewrite Ht.
  - rewrite filter_app, IH. f_equal. clear -Hf. induction Hf as [|t r Ht Hf IH]; [reflexivity|].
    cbn. rewrite Ht. cbn. congruence.
Qed.
(** Every untagged token exactly once, in order; no tagged one. *)
Theorem C14_all_untagged seqs : Forall (fun l => l <> []) seqs ->
  concat (pending_sequences tagged 0 seqs) = filter (fun t => negb (tagged t)) (concat seqs) /\
  Forall (fun r => r <> []) (pending_sequences tagged 0 seqs).
Proof.
  intros H. unfold pending_sequences. induction H as [|l seqs Hl H IH]; [split; [reflexivity|constructor]|].
  cbn [flat_map concat]. pose proof (C14_runs l Hl) as R. split.
  - rewrite concat_app, filter_app. f_equal; [exact (Runs_concat _ _ _ R)|apply IH].
  - apply Forall_app. split; [|apply IH]. clear -R. induction R; [constructor|assumption|constructor; assumption].
Qed.
(** a limit only cuts the list *)
Theorem C14_limit n seqs : exists rest,
  pending_sequences tagged 0 seqs = pending_sequences tagged n seqs ++ rest /\
  (n <> 0 -> length (pending_sequences tagged n seqs) <= n)%nat.
Proof.
  unfold pending_sequences. destruct n as [|n].
  - exists []. split; [now rewrite app_nil_r|congruence].
  - exists (skipn (S n) (flat_map (untagged_sub_sequences tagged) seqs)). split; [symmetry; apply firstn_skipn|].
    intros _. apply firstn_le_length.
Qed.
(** the empty sequence (never created) would yield an empty run *)
Theorem C14_empty : untagged_sub_sequences tagged [] = [[]].
Proof. reflexivity. Qed.
End Runs.

Example C14_ex : untagged_sub_sequences (fun n => Nat.eqb n 0) [0; 1; 2; 0; 0; 3; 0]%nat = [[1; 2]; [3]]%nat.
Proof. reflexivity. Qed.
Example C14_ex_nonempty : [0; 1; 2; 0; 0; 3; 0]%nat <> [].
Proof. discriminate. Qed.
Example C14_ex_pending : pending_sequences (fun n => Nat.eqb n 0) 2 [[1; 0; 2]; [0]; [3; 4]]%nat = [[1]; [2]]%nat.
Proof. reflexivity. Qed.

Print Assumptions C13_join.
Print Assumptions C13_ranges.
Print Assumptions C13_all_items.
Print Assumptions C13_error.
Print Assumptions C13_pad_refuted.
Print Assumptions C13_between.
Print Assumptions C13_sequence.
Print Assumptions C13_tokens.
Print Assumptions C13_core.
Print Assumptions C13_disjoint.
Print Assumptions C14_unique.
Print Assumptions C14_runs.
Print Assumptions C14_all_untagged.
Print Assumptions C14_limit.
