(** C130: what is reported about required elements that are missing. *)
From Coq Require Import Sorted.
From Verif Require Import Base ModelMapping ModelJoined ModelXml ModelTarget ModelTargets PropTargets ModelXPath PropXPath ModelRequired.
Open Scope list_scope.
Open Scope nat_scope.

(* ---------------------------------------------------------------- *)
(** ** Specification *)
(** [p] is what is before a slash of the expression *)
Definition before_slash (xpath p : str) : Prop := exists rest, xpath = p ++ u "/" ++ rest.
(** ... and long enough to be tried *)
Definition tried (xpath p : str) : Prop := before_slash xpath p /\ 2 <= length p.
Section Spec.
Context {A : Type} (find : str -> res (list A)).
(** all that is tried before [p] is found empty *)
Definition first_tried (xpath p : str) : Prop := forall q, tried xpath q -> length p < length q -> find q = Ok [].
Definition hint_ok (xpath : str) (h : option (str * list A)) : Prop :=
  match h with
  | Some (p, r) => tried xpath p /\ find p = Ok r /\ r <> [] /\ first_tried xpath p
  | None => forall q, tried xpath q -> find q = Ok []
  end.
End Spec.

(* ---------------------------------------------------------------- *)
(** ** Fragments *)
Lemma split_nonempty d s : split_on d s <> [].
Proof. destruct s as [|c s]; cbn; [discriminate|]. destruct (N.eqb c d); [discriminate|]. destruct (split_on d s); discriminate. Qed.
Lemma split_app d q r : split_on d (q ++ d :: r) = split_on d q ++ split_on d r.
Proof.
  induction q as [|c q IH]; cbn [app split_on]; [now rewrite N.eqb_refl|]. destruct (N.eqb c d); [now rewrite IH|]. rewrite IH.
  pose proof (split_nonempty d q) as H. destruct (split_on d q); [contradiction|reflexivity].
Qed.
Lemma join_cons sep x (l : list str) : l <> [] -> join_str sep (x :: l) = x ++ sep ++ join_str sep l.
Proof. destruct l; [contradiction|reflexivity]. Qed.
Lemma join_split s : join_str (u "/") (split_on 47%N s) = s.
Proof.
  induction s as [|c s IH]; [reflexivity|]. cbn [split_on]. pose proof (split_nonempty 47%N s) as H. destruct (N.eqb_spec c 47) as [->|Hc].
  - rewrite join_cons by exact H. rewrite IH. reflexivity.
  - destruct (split_on 47%N s) as [|h t]; [contradiction|]. destruct t as [|h' t].
    + cbn [join_str] in *. now rewrite IH.
    + rewrite join_cons in * by discriminate. rewrite <- IH. reflexivity.
Qed.
Lemma join_at (l : list str) : forall k, 1 <= k < length l -> join_str (u "/") l = join_str (u "/") (firstn k l) ++ u "/" ++ join_str (u "/") (skipn k l).
Proof.
  induction l as [|x l IH]; intros k Hk; cbn [length] in Hk; [lia|]. destruct k as [|k]; [lia|]. destruct l as [|y l]; [cbn [length] in Hk; lia|].
  rewrite join_cons by discriminate. cbn [firstn skipn]. destruct k as [|k]; [reflexivity|]. rewrite (IH (S k)) by (cbn [length] in *; lia).
  rewrite join_cons by (cbn [firstn]; discriminate). rewrite <- !app_assoc. reflexivity.
Qed.
Section Cuts.
Variable s : str.
Definition P (k : nat) : str := parent_xpath (split_on 47%N s) k.
Definition n := length (split_on 47%N s).
Lemma cut_of k : 1 <= k < n -> before_slash s (P k).
Proof. intros H. exists (join_str (u "/") (skipn k (split_on 47%N s))). unfold P, parent_xpath. rewrite <- join_at by exact H. now rewrite join_split. Qed.
Lemma of_cut p : before_slash s p -> exists k, 1 <= k < n /\ p = P k.
Proof.
  intros (r & H). exists (length (split_on 47%N p)). pose proof (split_nonempty 47%N p) as N1. pose proof (split_nonempty 47%N r) as N2.
  assert (E : split_on 47%N s = split_on 47%N p ++ split_on 47%N r) by (rewrite H; apply split_app). split.
  - unfold n. rewrite E, app_length. destruct (split_on 47%N p), (split_on 47%N r); try contradiction. cbn [length]. lia.
  - unfold P, parent_xpath. rewrite E, firstn_app, Nat.sub_diag, firstn_all, app_nil_r. symmetry. apply join_split.
Qed.
Lemma longer j k : 1 <= j -> j < k <= n -> length (P j) < length (P k).
Proof.
  intros H H'. unfold P, parent_xpath. rewrite (join_at (firstn k (split_on 47%N s)) j) by (rewrite firstn_length; fold n; lia).
  rewrite firstn_firstn, Nat.min_l by lia. rewrite !app_length. change (length (u "/")) with 1. lia.
Qed.
Lemma longer_iff j k : 1 <= j <= n -> 1 <= k <= n -> (length (P j) < length (P k) <-> j < k).
Proof.
  intros Hj Hk. split; [|intros H; apply longer; lia]. intros H. destruct (Nat.lt_total j k) as [L|[L|L]]; [exact L|subst; lia|]. pose proof (longer k j). lia.
Qed.

Context {A : Type} (find : str -> res (list A)).
Definition hint_upto (m : nat) (h : option (str * list A)) : Prop :=
  match h with
  | Some (p, r) => exists k, 1 <= k <= m /\ p = P k /\ 2 <= length p /\ find p = Ok r /\ r <> [] /\ forall j, k < j <= m -> find (P j) = Ok []
  | None => forall j, 1 <= j <= m -> 2 <= length (P j) -> find (P j) = Ok []
  end.
Definition error_upto (m : nat) (e : err) : Prop :=
  exists k, 1 <= k <= m /\ 2 <= length (P k) /\ find (P k) = Err e /\ forall j, k < j <= m -> find (P j) = Ok [].
Lemma counts m : rev (seq 1 (S m)) = S m :: rev (seq 1 m).
Proof. rewrite seq_S, rev_app_distr. reflexivity. Qed.
Lemma hint_sound m : m < n -> match find_hint find (split_on 47%N s) (rev (seq 1 m)) with Ok h => hint_upto m h | Err e => error_upto m e end.
Proof.
  induction m as [|m IH]; intros Hm; [cbn; intros j Hj; lia|]. rewrite counts. cbn [find_hint]. fold (P (S m)). destruct (Nat.leb_spec (length (P (S m))) 1) as [L|L].
  - intros j Hj Hl. destruct (Nat.eq_dec j (S m)) as [->|]; [lia|]. pose proof (longer j (S m)). lia.
  - destruct (find (P (S m))) as [r|e] eqn:E; cbn [bind].
    + destruct r as [|x r].
      * specialize (IH ltac:(lia)). destruct (find_hint find _ _) as [[[p r]|]|e].
        -- destruct IH as (k & K1 & K2 & K3 & K4 & K5 & K6). exists k. split; [lia|]. repeat split; auto. intros j Hj. destruct (Nat.eq_dec j (S m)) as [->|]; [exact E|]. apply K6. lia.
        -- intros j Hj Hl. destruct (Nat.eq_dec j (S m)) as [->|]; [exact E|]. apply IH; [lia|exact Hl].
        -- destruct IH as (k & K1 & K2 & K3 & K4). exists k. split; [lia|]. repeat split; auto. intros j Hj. destruct (Nat.eq_dec j (S m)) as [->|]; [exact E|]. apply K4. lia.
      * exists (S m). split; [lia|]. repeat split; auto; [discriminate|]. intros j Hj. lia.
    + exists (S m). split; [lia|]. repeat split; auto. intros j Hj. lia.
Qed.
End Cuts.

Section Theorems.
Context {A : Type} (find : str -> res (list A)).
Definition error_ok (xpath : str) (e : err) : Prop := exists p, tried xpath p /\ find p = Err e /\ first_tried find xpath p.
Lemma first_conv xpath k : 1 <= k < n xpath -> 2 <= length (P xpath k) -> (first_tried find xpath (P xpath k) <-> forall j, k < j <= n xpath - 1 -> find (P xpath j) = Ok []).
Proof.
  intros Hk L. split.
  - intros H j Hj. apply H; [split; [apply cut_of; lia|]|]; pose proof (longer xpath k j); lia.
  - intros H q [Q1 Q2] Q3. apply of_cut in Q1 as (j & Hj & ->). apply H. apply longer_iff in Q3; lia.
Qed.
Lemma hint_conv xpath h : hint_upto xpath find (n xpath - 1) h -> hint_ok find xpath h.
Proof.
  destruct h as [[p r]|]; cbn.
  - intros (k & K1 & -> & K3 & K4 & K5 & K6). split; [split; [apply cut_of; lia|exact K3]|]. repeat split; auto. apply first_conv; auto. lia.
  - intros H q [Q1 Q2]. apply of_cut in Q1 as (j & Hj & ->). apply H; [lia|exact Q2].
Qed.
Lemma error_conv xpath e : error_upto xpath find (n xpath - 1) e -> error_ok xpath e.
Proof.
  intros (k & K1 & K2 & K3 & K4). exists (P xpath k). split; [split; [apply cut_of; lia|exact K2]|]. split; [exact K3|]. apply first_conv; auto. lia.
Qed.
(** at most one of the outcomes is possible *)
Lemma hint_unique xpath h h' : hint_ok find xpath h -> hint_ok find xpath h' -> h = h'.
Proof.
  assert (E : forall p q, before_slash xpath p -> before_slash xpath q -> length p = length q -> p = q).
  { intros p q (r & Hr) (r' & Hr') L. rewrite Hr in Hr'. clear Hr. revert q L Hr'. induction p as [|c p IH]; intros [|d q] L H; try discriminate; [reflexivity|]. injection H as -> H. f_equal. apply IH; [now injection L|exact H]. }
  destruct h as [[p r]|], h' as [[p' r']|]; cbn; auto.
  - intros (H1 & H2 & H3 & H4) (K1 & K2 & K3 & K4). destruct (Nat.lt_total (length p) (length p')) as [L|[L|L]].
    + rewrite (H4 p' K1 L) in K2. congruence.
    + assert (p = p') as <- by (apply E; [apply H1|apply K1|exact L]). congruence.
    + rewrite (K4 p H1 L) in H2. congruence.
  - intros (H1 & H2 & H3 & _) K. rewrite (K p H1) in H2. congruence.
  - intros H (K1 & K2 & K3 & _). rewrite (H p' K1) in K2. congruence.
Qed.
Lemma error_exclusive xpath e h : error_ok xpath e -> hint_ok find xpath h -> False.
Proof.
  intros (p & P1 & P2 & P3). destruct h as [[q r]|]; cbn.
  - intros (H1 & H2 & H3 & H4). destruct (Nat.lt_total (length p) (length q)) as [L|[L|L]].
    + rewrite (P3 q H1 L) in H2. congruence.
    + destruct P1 as [(x & X) _], H1 as [(y & Y) _]. assert (p = q) as ->; [|congruence].
      rewrite X in Y. clear - Y L. revert q L Y. induction p as [|c p IH]; intros [|d q] L Y; try discriminate; [reflexivity|]. injection Y as -> Y. f_equal. apply IH; [now injection L|exact Y].
    + rewrite (H4 p P1 L) in P2. discriminate.
  - intros H. rewrite (H p P1) in P2. discriminate.
Qed.

(** Matches are given as they are, whether they are required or not. *)
Theorem C130_matches xpath required l : get_xpath_matches find xpath required = Ok (Matches l) <-> find xpath = Ok l /\ (l = [] -> required = false).
Proof.
  unfold get_xpath_matches. destruct (find xpath) as [[|x r]|e]; cbn [bind].
  - destruct required.
    + split; [|intros [[= <-] H]; now specialize (H eq_refl)]. destruct (find_hint find _ _); discriminate.
    + split; [intros [= <-]; auto|intros [[= <-] _]; reflexivity].
  - split; [intros [= <-]; split; [reflexivity|discriminate]|intros [[= <-] _]; reflexivity].
  - split; [discriminate|intros [[=] _]].
Qed.
(** A required element that is missing is reported together with the longest shorter expression
    that has matches. *)
Theorem C130_missing xpath required h : get_xpath_matches find xpath required = Ok (NothingFound h) <-> required = true /\ find xpath = Ok [] /\ hint_ok find xpath h.
Proof.
  unfold get_xpath_matches. destruct (find xpath) as [[|x r]|e]; cbn [bind]; [|split; [discriminate|intros (_ & [=] & _)]..].
  destruct required; [|split; [discriminate|intros ([=] & _)]]. cbn zeta. fold (n xpath).
  pose proof (hint_sound xpath find (n xpath - 1)) as H. assert (L : n xpath - 1 < n xpath). { pose proof (split_nonempty 47%N xpath) as N1. unfold n. destruct (split_on 47%N xpath); [contradiction|cbn [length]; lia]. }
  specialize (H L). destruct (find_hint find _ _) as [h0|e]; cbn [bind].
  - apply hint_conv in H. split; [intros [= <-]; auto|]. intros (_ & _ & K). now rewrite (hint_unique _ _ _ H K).
  - apply error_conv in H. split; [discriminate|]. intros (_ & _ & K). destruct (error_exclusive _ _ _ H K).
Qed.
(** All other errors are those of lxml, for the expression or for a shorter one. *)
Theorem C130_errors xpath required e : get_xpath_matches find xpath required = Err e ->
  find xpath = Err e \/ (required = true /\ find xpath = Ok [] /\ exists p, tried xpath p /\ find p = Err e /\ first_tried find xpath p).
Proof.
  unfold get_xpath_matches. destruct (find xpath) as [[|x r]|e0]; cbn [bind]; [|discriminate|intros [= <-]; auto].
  destruct required; [|discriminate]. cbn zeta. fold (n xpath).
  pose proof (hint_sound xpath find (n xpath - 1)) as H. assert (L : n xpath - 1 < n xpath). { pose proof (split_nonempty 47%N xpath) as N1. unfold n. destruct (split_on 47%N xpath); [contradiction|cbn [length]; lia]. }
  specialize (H L). destruct (find_hint find _ _) as [h0|e1]; cbn [bind]; [discriminate|]. intros [= <-]. right. split; [reflexivity|]. split; [reflexivity|]. now apply error_conv.
Qed.
(** The first match is the first one of all; there is never an index error of its own. *)
Theorem C130_first xpath : (forall x, get_first_xpath_match find xpath = Ok (inl x) <-> exists l, find xpath = Ok (x :: l)) /\
  (forall h, get_first_xpath_match find xpath = Ok (inr h) <-> find xpath = Ok [] /\ hint_ok find xpath h) /\
  (forall e, get_first_xpath_match find xpath = Err e <-> get_xpath_matches find xpath true = Err e).
Proof.
  unfold get_first_xpath_match. pose proof (fun l => C130_matches xpath true l) as M. pose proof (fun h => C130_missing xpath true h) as N.
  destruct (get_xpath_matches find xpath true) as [[l|h0]|e0] eqn:E; cbn [bind].
  - destruct (proj1 (M l) eq_refl) as [F K]. destruct l as [|y l]; [now specialize (K eq_refl)|]. split; [|split].
    + intros x. rewrite F. split; [intros [= <-]; eauto|intros (l' & [= <- _]); reflexivity].
    + intros h. rewrite F. split; [discriminate|intros [[=] _]].
    + intros e. split; discriminate.
  - destruct (proj1 (N h0) eq_refl) as (_ & F & K). split; [|split].
    + intros x. rewrite F. split; [discriminate|intros (l' & [=])].
    + intros h. split; [intros [= <-]; auto|intros [_ H]; now rewrite (hint_unique _ _ _ K H)].
    + intros e. split; discriminate.
  - split; [|split].
    + intros x. split; [discriminate|]. intros (l' & H). assert (Q : Err e0 = Ok (Matches (x :: l'))) by (apply M; split; [exact H|discriminate]). discriminate.
    + intros h. split; [discriminate|]. intros [H1 H2]. assert (Q : @Err (lookup A) e0 = Ok (NothingFound h)) by (apply N; auto). discriminate.
    + intros e. split; congruence.
Qed.
End Theorems.

(* ---------------------------------------------------------------- *)
(** ** With the evaluator of C114 *)
(** The first match is the first one in the document. *)
Theorem C130_first_in_document root p xpath x : get_first_xpath_match (xpath_at root p) xpath = Ok (inl x) ->
  forall l y, xpath_at root p xpath = Ok l -> In y l -> y = x \/ comes_before x y.
Proof.
  intros H l y Hl Hy. apply C130_first in H as (l' & H). assert (l = x :: l') as -> by congruence. destruct Hy as [->|Hy]; [now left|]. right.
  unfold xpath_at in H. destruct (parse_xpath xpath) as [e|]; [|discriminate]. injection H as H. pose proof (C114_order root e p) as S. rewrite H in S.
  inversion S as [|? ? _ F]; subst. rewrite Forall_forall in F. now apply F.
Qed.
Definition tei : xml := Elem (u "TEI") [] [] [Elem (u "text") [] [] [Elem (u "body") [] [] [] []; Elem (u "body") [] [] [] []] []] [].
Definition in_tei : str -> res (list npath) := xpath_at tei [].
(** It is not true that missing required elements always give a [ValueError]: what is before a
    slash need not be an expression. *)
Theorem C130_value_error_refuted : exists root xpath, xpath_at root [] xpath = Ok [] /\
  ~ (exists h, get_xpath_matches (xpath_at root []) xpath true = Ok (NothingFound h)) /\ parse_xpath (u "text/") = None /\ xpath = u "text//div".
Proof. exists tei, (u "text//div"). split; [vm_compute; reflexivity|]. split; [intros (h & H); vm_compute in H; discriminate|]. split; [vm_compute; reflexivity|reflexivity]. Qed.

Example C130_ex : get_xpath_matches in_tei (u "text/body/div/p") true = Ok (NothingFound (Some (u "text/body", [[0; 0]; [0; 1]]))) /\
  get_xpath_matches in_tei (u "text/body/div/p") false = Ok (Matches []) /\
  get_xpath_matches in_tei (u "//div") true = Ok (NothingFound None) /\
  get_first_xpath_match in_tei (u "text/body") = Ok (inl [0; 0]) /\
  get_xpath_matches in_tei (u "text[body/p]/div") true = Err RuntimeError.
Proof. vm_compute. auto. Qed.
Example C130_ex_hint : hint_ok in_tei (u "text/body/div/p") (Some (u "text/body", [[0; 0]; [0; 1]])).
Proof. apply (C130_missing in_tei _ true). vm_compute. reflexivity. Qed.

Print Assumptions C130_matches.
Print Assumptions C130_missing.
Print Assumptions C130_errors.
Print Assumptions C130_first.
Print Assumptions C130_first_in_document.
Print Assumptions C130_value_error_refuted.
