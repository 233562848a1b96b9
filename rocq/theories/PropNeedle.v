(** C134: the second form in which a value is searched *)
From Verif Require Import Base ModelTags ModelTokenize ModelTei ModelTeiDoc ModelJoined ModelExtend ModelClusters
  ModelTarget ModelReference ModelSimpleMatch.
Open Scope nat_scope.
Open Scope list_scope.

(* ---------------------------------------------------------------- *)
(** ** Specification *)
Section Spec.
Variable sp wd : N -> bool.
(** the words of a text: runs of word characters that cannot be made longer, and every other character that is not a space *)
Inductive words_in : str -> list str -> Prop :=
| wi_nil : words_in [] []
| wi_space c s ps : wd c = false -> sp c = true -> words_in s ps -> words_in (c :: s) ps
| wi_char c s ps : wd c = false -> sp c = false -> words_in s ps -> words_in (c :: s) ([c] :: ps)
| wi_word w s ps : w <> [] -> Forall (fun c => wd c = true) w -> match s with c :: _ => wd c = false | [] => True end ->
    words_in s ps -> words_in (w ++ s) (w :: ps).
(** with one space between two of them *)
Inductive spaced : list str -> str -> Prop :=
| sd_nil : spaced [] []
| sd_one w : spaced [w] w
| sd_more w v ps t : spaced (v :: ps) t -> spaced (w :: v :: ps) (w ++ 32%N :: t).
(** of both kinds of characters only the one *)
Definition classes_apart : Prop := (forall c, wd c = true -> sp c = false) /\ sp 32%N = true.
End Spec.

(* ---------------------------------------------------------------- *)
Section C134.
Variable sp wd : N -> bool.
Hypothesis Hc : classes_apart sp wd.
Notation kept := (filter (fun x => negb (blank sp x))).
Lemma kept_word w l : w <> [] -> Forall (fun c => wd c = true) w -> kept (w :: l) = w :: kept l.
Proof.
  intros Hw H. cbn [filter]. destruct w as [|c w]; [congruence|]. unfold blank. cbn [forallb]. apply Forall_inv in H. apply Hc in H. rewrite H. reflexivity.
Qed.
Lemma go_words s ps : words_in sp wd s ps -> forall cur, Forall (fun c => wd c = true) cur ->
  (cur = [] \/ match s with c :: _ => wd c = false | [] => True end) ->
  kept (split_nonword_go wd cur s) = match cur with [] => [] | _ => [rev cur] end ++ ps.
Proof.
  assert (K : forall cur, Forall (fun c => wd c = true) cur -> forall l, kept (rev cur :: l) = match cur with [] => [] | _ => [rev cur] end ++ kept l).
  { intros [|c cur] H l; [reflexivity|]. apply kept_word; [|now apply Forall_rev]. intros E. apply (f_equal (@length N)) in E. rewrite rev_length in E. discriminate. }
  induction 1 as [|c s ps Hw Hs H IH|c s ps Hw Hs H IH|w s ps Hn Hw Hs H IH]; intros cur Hcur Hn'.
  - cbn [split_nonword_go]. rewrite (K cur Hcur []). reflexivity.
  - cbn [split_nonword_go]. rewrite Hw, (K cur Hcur). f_equal. cbn [filter]. unfold blank at 1. cbn [forallb]. rewrite Hs. cbn [negb andb].
    apply (IH []); [constructor|now left].
  - cbn [split_nonword_go]. rewrite Hw, (K cur Hcur). f_equal. cbn [filter]. unfold blank at 1. cbn [forallb]. rewrite Hs. cbn [negb andb]. f_equal.
    apply (IH []); [constructor|now left].
  - destruct Hn' as [->|Hb].
    + cbn [app]. assert (G : forall cur, split_nonword_go wd cur (w ++ s) = split_nonword_go wd (rev w ++ cur) s).
      { clear -Hw. induction Hw as [|c w Hc Hw IH]; intros cur; [reflexivity|]. cbn [app split_nonword_go rev]. rewrite Hc, IH, <- app_assoc. reflexivity. }
      rewrite G, app_nil_r, IH; [|now apply Forall_rev|now right]. rewrite rev_involutive.
      destruct (rev w) as [|c r] eqn:E; [|reflexivity]. apply (f_equal (@rev N)) in E. rewrite rev_involutive in E. contradiction.
    + destruct w as [|c w]; [congruence|]. cbn [app] in Hb. apply Forall_inv in Hw. congruence.
Qed.
Lemma words_exist s : exists ps, words_in sp wd s ps.
Proof.
  assert (G : forall s, exists ps, words_in sp wd s ps /\ exists w t qs, s = w ++ t /\ Forall (fun c => wd c = true) w /\
    match t with c :: _ => wd c = false | [] => True end /\ words_in sp wd t qs).
  { clear s. induction s as [|c s (ps & Hp & w & t & qs & E & Hw & Ht & Hq)].
    - exists []. split; [constructor|]. exists [], [], []. repeat split; constructor.
    - destruct (wd c) eqn:Ew.
      + exists ((c :: w) :: qs). rewrite E. change (c :: w ++ t) with ((c :: w) ++ t). split.
        * apply wi_word; [discriminate|now constructor|exact Ht|exact Hq].
        * exists (c :: w), t, qs. split; [reflexivity|]. split; [now constructor|]. split; assumption.
      + assert (X : exists qs', words_in sp wd (c :: s) qs').
        { destruct (sp c) eqn:Es; eexists; [now apply wi_space; [| |exact Hp]|now apply wi_char; [| |exact Hp]]. }
        destruct X as [qs' X]. exists qs'. split; [exact X|]. exists [], (c :: s), qs'. split; [reflexivity|]. split; [constructor|]. split; assumption. }
  destruct (G s) as (ps & H & _). now exists ps.
Qed.
Lemma join_spaced ps : spaced ps (join_str (u " ") ps).
Proof.
  induction ps as [|w [|v ps] IH]; [constructor|constructor|]. apply (sd_more w v ps _ IH).
Qed.
Lemma spaced_det ps t : spaced ps t -> t = join_str (u " ") ps.
Proof. induction 1 as [| |w v ps t H IH]; [reflexivity|reflexivity|]. rewrite IH. reflexivity. Qed.

(** What is searched is the words of the value with one space in between. *)
Theorem C134_words s t : t = split_and_join sp wd s <-> exists ps, words_in sp wd s ps /\ spaced ps t.
Proof.
  assert (E : forall ps, words_in sp wd s ps -> split_and_join sp wd s = join_str (u " ") ps).
  { intros ps H. unfold split_and_join, split_nonword. rewrite (go_words s ps H []); [reflexivity|constructor|now left]. }
  split.
  - intros ->. destruct (words_exist s) as [ps H]. exists ps. split; [exact H|]. rewrite (E ps H). apply join_spaced.
  - intros (ps & H & Ht). rewrite (E ps H). now apply spaced_det.
Qed.
(** A text has one list of words. *)
Theorem C134_unique s ps qs : words_in sp wd s ps -> words_in sp wd s qs -> ps = qs.
Proof.
  intros H1 H2. pose proof (go_words s ps H1 [] (Forall_nil _) (or_introl eq_refl)) as A. pose proof (go_words s qs H2 [] (Forall_nil _) (or_introl eq_refl)) as B.
  cbn [app] in A, B. congruence.
Qed.
Lemma words_of_word s ps w : words_in sp wd s ps -> In w ps -> w <> [] /\ (Forall (fun c => wd c = true) w \/ exists c, w = [c] /\ wd c = false /\ sp c = false).
Proof.
  induction 1 as [|c s ps Hw Hs H IH|c s ps Hw Hs H IH|v s ps Hn Hw Hs H IH]; intros Hi; [destruct Hi|now apply IH| |]; destruct Hi as [<-|Hi]; try (now apply IH).
  - split; [discriminate|]. right. now exists c.
  - split; [exact Hn|]. now left.
Qed.
(** The words of what is searched are the words of the value. *)
Theorem C134_same_words s ps : words_in sp wd s ps -> words_in sp wd (split_and_join sp wd s) ps.
Proof.
  intros H. destruct (proj1 (C134_words s _) eq_refl) as (qs & Hq & Hs). rewrite (C134_unique s ps qs H Hq).
  pose proof (fun w => words_of_word s qs w Hq) as W. clear H Hq ps. remember (split_and_join sp wd s) as t eqn:Et. clear Et s.
  assert (S32 : wd 32%N = false) by (destruct (wd 32%N) eqn:E; [|reflexivity]; apply Hc in E; destruct Hc as [_ X]; congruence).
  induction Hs as [|w|w v ps t Hs IH]; [constructor| |].
  - destruct (W w (or_introl eq_refl)) as (Hn & [Hw|(c & -> & Hw & Hsp)]).
    + rewrite <- (app_nil_r w) at 1. apply wi_word; [exact Hn|exact Hw|exact I|constructor].
    + apply wi_char; [exact Hw|exact Hsp|constructor].
  - assert (X : words_in sp wd (32%N :: t) (v :: ps)) by (apply wi_space; [exact S32|apply Hc|]; apply IH; intros x Hx; apply W; now right).
    destruct (W w (or_introl eq_refl)) as (Hn & [Hw|(c & -> & Hw & Hsp)]).
    + apply wi_word; [exact Hn|exact Hw|exact S32|exact X].
    + apply wi_char; [exact Hw|exact Hsp|exact X].
Qed.
(** Two values have the same second form exactly if they have the same words. *)
Theorem C134_same s s' ps ps' : words_in sp wd s ps -> words_in sp wd s' ps' ->
  (split_and_join sp wd s = split_and_join sp wd s' <-> ps = ps').
Proof.
  intros H H'. split.
  - intros E. apply (C134_unique (split_and_join sp wd s)); [now apply C134_same_words|]. rewrite E. now apply C134_same_words.
  - intros E. subst ps'. destruct (proj1 (C134_words s _) eq_refl) as (qs & Hq & Hs). apply C134_words. exists ps. split; [exact H'|].
    now rewrite (C134_unique s ps qs H Hq).
Qed.
(** A value that is long enough and is not found as it is, is searched as its words. *)
Theorem C134_search lower search_chunks c h n k ps t :
  let h' := if Nat.ltb (length (normalise_str lower n)) (cf_exact c) then py_replace [10%N] (u " ") h else h in
  cf_min_token_length c <= length n ->
  search_chunks h' (normalise_str lower n) k = Ok None \/ search_chunks h' (normalise_str lower n) k = Ok (Some []) ->
  words_in sp wd (normalise_str lower n) ps -> spaced ps t ->
  matching_chunks sp wd lower search_chunks c h n k = search_chunks h' t k.
Proof.
  intros h' Hl Hf Hp Ht. assert (E : t = split_and_join sp wd (normalise_str lower n)) by (apply C134_words; now exists ps).
  unfold matching_chunks, normalise. replace (Nat.ltb (length n) (cf_min_token_length c)) with false by (symmetry; now apply Nat.ltb_ge).
  fold h'. rewrite <- E. destruct Hf as [-> | ->]; reflexivity.
Qed.
End C134.

(* ---------------------------------------------------------------- *)
(** ** Examples *)
Lemma ascii_apart : classes_apart ascii_space ascii_word.
Proof.
  split; [|reflexivity]. intros c H. destruct (ascii_space c) eqn:E; [|reflexivity]. unfold ascii_space in E.
  apply orb_true_iff in E as [E|E].
  - apply N.eqb_eq in E. subst c. discriminate H.
  - apply andb_true_iff in E as [E1 E2]. apply N.leb_le in E1, E2.
    assert (X : (c = 9 \/ c = 10 \/ c = 11 \/ c = 12 \/ c = 13)%N) by lia.
    destruct X as [-> | [-> | [-> | [-> | ->]]]]; discriminate H.
Qed.
Example C134_words_ex : words_in ascii_space ascii_word (u "in-vivo  (2b)") [u "in"; u "-"; u "vivo"; u "("; u "2b"; u ")"] /\
  split_and_join ascii_space ascii_word (u "in-vivo  (2b)") = u "in - vivo ( 2b )".
Proof.
  split; [|vm_compute; reflexivity].
  assert (W : forall w s ps, forallb ascii_word w = true -> w <> [] -> match s with c :: _ => ascii_word c = false | [] => True end ->
    words_in ascii_space ascii_word s ps -> words_in ascii_space ascii_word (w ++ s) (w :: ps)).
  { intros w s ps H Hn. apply wi_word; [exact Hn|]. apply Forall_forall. now apply forallb_forall. }
  apply (W (u "in") (u "-vivo  (2b)")); [reflexivity|discriminate|reflexivity|]. apply wi_char; [reflexivity|reflexivity|].
  apply (W (u "vivo") (u "  (2b)")); [reflexivity|discriminate|reflexivity|]. apply wi_space; [reflexivity|reflexivity|]. apply wi_space; [reflexivity|reflexivity|].
  apply wi_char; [reflexivity|reflexivity|]. apply (W (u "2b") (u ")")); [reflexivity|discriminate|reflexivity|]. apply wi_char; [reflexivity|reflexivity|constructor].
Qed.
Example C134_same_ex : split_and_join ascii_space ascii_word (u "in-vivo  (2b)") = split_and_join ascii_space ascii_word (u "in - vivo(2b) ") /\
  u "in-vivo  (2b)" <> u "in - vivo(2b) ".
Proof. split; [vm_compute; reflexivity|discriminate]. Qed.
(** the value is in the text with other spaces: the second search is the one that finds it *)
Definition only_text (t : str) (h n : str) (k : nat) : res (option (list irange)) := if streq n t then Ok (Some [(0, zlen n)%Z]) else Ok None.
Example C134_search_ex :
  matching_chunks ascii_space ascii_word (fun s => s) (only_text (u "in - vivo")) (mkConfig 200 2 5 true true true false []) (u "in - vivo") (u "in-vivo") 1 =
  Ok (Some [(0, 9)%Z]).
Proof. vm_compute. reflexivity. Qed.

Print Assumptions C134_words.
Print Assumptions C134_unique.
Print Assumptions C134_same_words.
Print Assumptions C134_same.
Print Assumptions C134_search.
