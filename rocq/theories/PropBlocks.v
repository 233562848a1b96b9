(** C140: blocks of fields in the simple matcher: when the search starts again from the beginning of the document and where it goes on *)
From Verif Require Import Base ModelTags ProofTags ModelTokenize ModelTei ModelTeiDoc SpecTeiWrite SpecTeiDoc ProofTeiDoc PropTeiDoc
  ModelJoined PropJoined ModelExtend ModelClusters ModelTarget ModelReference ModelSimpleMatch PropSimpleMatch.
Open Scope Z_scope.
Open Scope list_scope.

(* ---------------------------------------------------------------- *)
(** ** Specification *)
(** the block of a field: the one configured, or the one of all fields without *)
Definition in_block (c : config) (name b : str) : Prop :=
  (tc_block (get_tag_config c name) = Some b /\ b <> []) \/
  ((tc_block (get_tag_config c name) = None \/ tc_block (get_tag_config c name) = Some []) /\ b = u "default").
(** where the text of a line starts: behind the lines before and what separates them *)
Definition text_before {A} (sep : str) (qs : list (seqw A)) : str := flat_map (fun q => seq_text q ++ sep) qs.

(* ---------------------------------------------------------------- *)
(** ** Where the search goes on *)
Section Rest.
Context {A : Type}.
Variable sep : str.
Notation pieces := (map (fun q : seqw A => (seq_text q, sep))).
Lemma last_end l : forall s d, l <> [] -> snd (last (spans_from s l) d) = s + zlen (glue l).
Proof.
  induction l as [|[x y] l IH]; intros s d H; [congruence|]. cbn [spans_from glue]. destruct l as [|p l].
  - cbn. now rewrite app_nil_r.
  - assert (N : spans_from (s + zlen x + zlen y) (p :: l) <> []) by (destruct p; discriminate).
    transitivity (snd (last (spans_from (s + zlen x + zlen y) (p :: l)) d)).
    + cbn [last]. destruct (spans_from (s + zlen x + zlen y) (p :: l)); [congruence|reflexivity].
    + rewrite IH by discriminate. rewrite !zlen_app. lia.
Qed.
(** The end is the end of the text. *)
Theorem C140_end (qs : list (seqw A)) : qs <> [] -> seqs_end_index sep [] qs = zlen (seqs_text sep [] qs).
Proof.
  intros H. unfold seqs_end_index, end_index, seqs_text. rewrite seqs_joined_eq. cbn [fst snd]. rewrite <- spans_eq, last_end; [reflexivity|]. destruct qs; [congruence|discriminate].
Qed.
Lemma skip_before r rest : forall pre s, s + zlen (text_before sep pre) <= fst r ->
  filter (fun p => overlaps (snd p) r) (combine (pre ++ rest) (spans_from s (pieces (pre ++ rest)))) =
  filter (fun p => overlaps (snd p) r) (combine rest (spans_from (s + zlen (text_before sep pre)) (pieces rest))).
Proof.
  induction pre as [|q pre IH]; intros s H; cbn [app]; [change (zlen (text_before sep [])) with 0; now rewrite Z.add_0_r|].
  change (text_before sep (q :: pre)) with ((seq_text q ++ sep) ++ text_before sep pre) in *. rewrite !zlen_app in *. cbn [map spans_from combine filter snd].
  pose proof (zlen_nonneg (text_before sep pre)). pose proof (zlen_nonneg sep).
  assert (E : overlaps (s, s + zlen (seq_text q)) r = false).
  { unfold overlaps. cbn [fst snd]. apply andb_false_iff. right. apply Z.ltb_ge. lia. }
  rewrite E, IH by lia. rewrite !Z.add_assoc. reflexivity.
Qed.
Lemma keep_after r : forall post s, Forall (fun q : seqw A => seq_text q <> []) post -> fst r <= s -> s + zlen (glue (pieces post)) <= snd r ->
  map fst (filter (fun p => overlaps (snd p) r) (combine post (spans_from s (pieces post)))) = post.
Proof.
  induction post as [|q post IH]; intros s H Hs He; [reflexivity|]. inversion H as [|? ? Hq H']; subst. cbn [map spans_from combine filter snd].
  cbn [map glue] in He. rewrite zlen_app in He.
  assert (L : 0 < zlen (seq_text q)) by (destruct (seq_text q); [congruence|unfold zlen; cbn [length]; lia]).
  match type of He with context [zlen ?x] => match x with match _ with _ => _ end => pose proof (zlen_nonneg x) as L2 end end.
  assert (E : overlaps (s, s + zlen (seq_text q)) r = true).
  { unfold overlaps. cbn [fst snd]. apply andb_true_iff. split; apply Z.ltb_lt; lia. }
  rewrite E. cbn [map fst]. f_equal. destruct post as [|q' post]; [reflexivity|]. apply IH; [exact H'| |].
  - pose proof (zlen_nonneg sep). lia.
  - cbn [map] in He |- *. rewrite zlen_app in He. lia.
Qed.
(** From a place in a line to the end there are that line and all that follow. *)
Theorem C140_rest (pre : list (seqw A)) q post k : Forall (fun x : seqw A => seq_text x <> []) (q :: post) ->
  zlen (text_before sep pre) <= k < zlen (text_before sep pre) + zlen (seq_text q) ->
  sequences_between sep [] (pre ++ q :: post) (k, seqs_end_index sep [] (pre ++ q :: post)) = q :: post.
Proof.
  intros H Hk. rewrite C140_end by (destruct pre; discriminate). unfold sequences_between, seqs_text. rewrite seqs_joined_eq. cbn [fst snd].
  rewrite items_between_eq; [|now rewrite spans_length, map_length|apply spans_sorted]. rewrite <- spans_eq. rewrite skip_before by (cbn [fst]; lia).
  rewrite Z.add_0_l. set (s := zlen (text_before sep pre)) in *.
  assert (G : zlen (glue (pieces (pre ++ q :: post))) = s + zlen (glue (pieces (q :: post)))).
  { unfold s. clear. induction pre as [|p pre IH]; [reflexivity|]. change (text_before sep (p :: pre)) with ((seq_text p ++ sep) ++ text_before sep pre).
    cbn [app map]. assert (N : pieces (pre ++ q :: post) <> []) by (destruct pre; discriminate). revert N IH. generalize (pieces (pre ++ q :: post)) as t. intros t N IH.
    cbn [glue]. destruct t as [|y t]; [congruence|]. rewrite !zlen_app, IH. cbn [map glue]. rewrite !zlen_app. lia. }
  rewrite G. cbn [map spans_from combine filter snd glue].
  inversion H as [|? ? Hq H']; subst. assert (E : overlaps (s, s + zlen (seq_text q)) (k, s + zlen (glue (pieces (q :: post)))) = true).
  { unfold overlaps. cbn [fst snd map glue]. rewrite zlen_app. match goal with |- context [zlen (match ?x with _ => _ end)] => pose proof (zlen_nonneg (match x with [] => [] | _ => sep ++ glue x end)) end.
    apply andb_true_iff. split; apply Z.ltb_lt; lia. }
  cbn [map glue] in E. rewrite E. cbn [map fst]. f_equal. destruct post as [|q' post]; [reflexivity|]. apply keep_after; [exact H'| |].
  - cbn [fst]. pose proof (zlen_nonneg sep). lia.
  - cbn [snd map]. rewrite !zlen_app. lia.
Qed.
End Rest.

(* ---------------------------------------------------------------- *)
(** ** When the search starts again *)
Section Blocks.
Variables (sp wd : N -> bool) (lower escape : str -> str) (re_search : str -> str -> option Z).
Variable search_chunks : str -> str -> nat -> res (option (list irange)).
Variable search_all : str -> str -> list (res irange).
Variable c : config.
Variable sub_only : bool.
Notation process := (process_one sp wd lower escape re_search search_chunks search_all c sub_only).
Notation ranges := (matching_ranges sp wd lower search_chunks c).
Notation text_at := (pending_text sp lower).

Lemma block_name_of name b : in_block c name b -> block_name c name = b.
Proof. unfold block_name. intros [[-> H]|[[-> | ->] ->]]; [destruct b; [congruence|reflexivity]|reflexivity|reflexivity]. Qed.
(** A field changes where the search is only if it is in another block and not found in the lines ahead, but in the document. *)
Theorem C140_step all s a b s' : in_block c (an_name a) b -> process all s a = Ok s' ->
  (st_block s' = st_block s /\ st_seqs s' = st_seqs s) \/
  (st_block s <> Some b /\ st_block s' = Some b /\ ranges (text_at (cf_lookahead c) (st_doc s) (st_seqs s)) a = Ok [] /\
   exists rs r, ranges (text_at 0 (st_doc s) all) a = Ok rs /\ rs <> [] /\ merge_index_ranges rs = Ok r /\
     st_seqs s' = map (map w_tok) (sequences_between [10%N] [] (text_at 0 (st_doc s) all) (fst r, seqs_end_index [10%N] [] (text_at 0 (st_doc s) all)))).
Proof.
  intros Hb. unfold process_one. rewrite (block_name_of _ _ Hb). destruct (ranges (text_at (cf_lookahead c) (st_doc s) (st_seqs s)) a) as [[|x rs]|e] eqn:E; cbn [bind]; [| |discriminate].
  - destruct (ostreq (st_block s) (Some b)) eqn:Eb; [intros [= <-]; left; auto|].
    destruct (ranges (text_at 0 (st_doc s) all) a) as [[|y rs]|e] eqn:E2; cbn [bind]; [intros [= <-]; left; auto| |discriminate].
    destruct (merge_index_ranges (y :: rs)) as [r|e] eqn:E3; cbn [bind]; [|discriminate].
    match goal with |- bind ?x _ = _ -> _ => destruct x as [d'|e] end; cbn [bind]; [|discriminate]. intros F. injection F as F. right. subst s'. cbn [st_block st_seqs].
    split; [intros H; rewrite H in Eb; assert (T : ostreq (Some b) (Some b) = true) by (now apply ostreq_true); rewrite T in Eb; discriminate Eb|]. split; [reflexivity|]. split; [reflexivity|].
    exists (y :: rs), r. split; [reflexivity|]. split; [discriminate|]. split; [exact E3|reflexivity].
  - match goal with |- bind ?x _ = _ -> _ => destruct x as [d'|e] end; cbn [bind]; [|discriminate]. intros [= <-]. left. auto.
Qed.
(** Once the search is in a block, fields of the block do not start it again, and are left over if they are not found ahead. *)
Theorem C140_same_block all l : forall s s' b, Forall (fun a => in_block c (an_name a) b) l -> st_block s = Some b ->
  foldM (process all) s l = Ok s' -> st_block s' = Some b /\ st_seqs s' = st_seqs s.
Proof.
  induction l as [|a l IH]; intros s s' b H Hs; cbn [foldM]; [intros [= <-]; auto|]. inversion H as [|? ? Ha H']; subst.
  destruct (process all s a) as [s1|e] eqn:E; cbn [bind]; [|discriminate]. intros F.
  destruct (C140_step all s a b s1 Ha E) as [[B Q]|[N _]]; [|congruence]. rewrite <- Q. apply (IH s1 s' b H'); [congruence|exact F].
Qed.
Theorem C140_left all s a b : in_block c (an_name a) b -> st_block s = Some b -> ranges (text_at (cf_lookahead c) (st_doc s) (st_seqs s)) a = Ok [] ->
  process all s a = Ok (mkState (st_doc s) (st_seqs s) (st_block s) (st_left s ++ [a])).
Proof.
  intros Hb Hs E. unfold process_one. rewrite (block_name_of _ _ Hb), E. cbn [bind]. rewrite Hs.
  assert (T : ostreq (Some b) (Some b) = true) by now apply ostreq_true. now rewrite T.
Qed.
End Blocks.

(* ---------------------------------------------------------------- *)
(** ** Examples *)
Definition ex_block_config (block : ostr) : config :=
  mkConfig 1 2 5 true false false false [(u "k2", mkTagConfig None [] true true 1 block)].
Definition ex_block_doc : doc := [[word "alpha" None]; [word "beta" None]; [word "gamma" None; word "delta" None]; [word "epsilon" None]].
Definition ex_block_state (block : ostr) : res state :=
  process_targets ascii_space ascii_word lower_ascii (fun s => s) no_regex exact_chunks exact_all (ex_block_config block) false
    [mkTann (u "k1") (VOne (u "delta")) []; mkTann (u "k2") (VOne (u "alpha")) []] ex_block_doc.
(** the first field is found in the third line, where the search goes on; the second one is in the same block and left over *)
Example C140_same_ex : exists s, ex_block_state None = Ok s /\ st_block s = Some (u "default") /\ st_seqs s = [[(2, 0); (2, 1)]; [(3, 0)]]%nat /\
  map an_name (st_left s) = [u "k2"] /\ in_block (ex_block_config None) (u "k1") (u "default") /\ in_block (ex_block_config None) (u "k2") (u "default").
Proof.
  eexists. split; [vm_compute; reflexivity|]. split; [reflexivity|]. split; [reflexivity|]. split; [reflexivity|].
  split; (right; split; [left; vm_compute; reflexivity|reflexivity]).
Qed.
(** in a block of its own it is found *)
Example C140_other_ex : exists s, ex_block_state (Some (u "x")) = Ok s /\ st_block s = Some (u "x") /\ st_left s = [] /\
  map (map tag) (st_doc s) = [[Some (u "b-k2")]; [None]; [None; Some (u "b-k1")]; [None]] /\ in_block (ex_block_config (Some (u "x"))) (u "k2") (u "x").
Proof.
  eexists. split; [vm_compute; reflexivity|]. split; [reflexivity|]. split; [reflexivity|]. split; [reflexivity|]. left. split; [vm_compute; reflexivity|discriminate].
Qed.
Example C140_rest_ex :
  let a := [mkW 1%nat (u "ab") []] in let b := [mkW 2%nat (u "c") (u " "); mkW 3%nat (u "d") []] in let e := [mkW 4%nat (u "e") []] in
  Forall (fun x : seqw nat => seq_text x <> []) [b; e] /\ text_before [10%N] [a] = u "ab" ++ [10%N] /\ seq_text b = u "c d" /\
  seqs_end_index [10%N] [] [a; b; e] = 8 /\ sequences_between [10%N] [] [a; b; e] (5, 8) = [b; e] /\ sequences_between [10%N] [] [a; b; e] (6, 8) = [e].
Proof. cbv zeta. split; [repeat constructor; discriminate|]. repeat split; vm_compute; reflexivity. Qed.

Print Assumptions C140_end.
Print Assumptions C140_rest.
Print Assumptions C140_step.
Print Assumptions C140_same_block.
Print Assumptions C140_left.
