(** C17, C18: line numbers. *)
From Coq Require Import Permutation Sorted.
From Verif Require Import Base ModelTags ModelTei ModelTeiDoc SpecTeiDoc ProofTeiDoc PropTeiDoc ModelClusters PropClusters ModelLineNumbers.
Open Scope Z_scope.

Section LineNumbers.
Variable sp : N -> bool.
Variable parse_int : str -> option Z.

(** the first word of line [i] is at index [j] *)
Definition is_first_word (d : doc) (ij : nat * nat) (t : tok) : Prop :=
  exists l a b, nth_error d (fst ij) = Some l /\ l = a ++ t :: b /\ length a = snd ij
    /\ Forall (fun x => is_space sp x = true) a /\ is_space sp t = false.
(** numbered first words: position and number *)
Definition numbered (d : doc) (x : nat * nat * Z) : Prop :=
  exists t, is_first_word d (fst x) t /\ parse_int (tx t) = Some (snd x) /\ 0 < snd x.
(** further down in the document and with a greater number *)
Definition after (x y : nat * nat * Z) : Prop := (fst (fst x) < fst (fst y))%nat /\ snd x < snd y.
(** steps between neighbours *)
Inductive steps (gap : Z) : list (nat * nat * Z) -> Prop :=
| St_nil : steps gap []
| St_one x : steps gap [x]
| St_cons x y l : snd y <= snd x + 1 + gap -> steps gap (y :: l) -> steps gap (x :: y :: l).

Lemma first_word_spec l : forall j0 j t, first_word sp j0 l = Some (j, t) <->
  exists a b, l = a ++ t :: b /\ j = (j0 + length a)%nat /\ Forall (fun x => is_space sp x = true) a /\ is_space sp t = false.
Proof.
  induction l as [|x l IH]; intros j0 j t; cbn [first_word].
  - split; [discriminate | intros ([|] & b & E & _); discriminate].
  - destruct (is_space sp x) eqn:E.
    + rewrite IH. split.
      * intros (a & b & -> & -> & H1 & H2). exists (x :: a), b. cbn [length app]. repeat split; auto; lia.
      * intros (a & b & E1 & -> & H1 & H2). destruct a as [|y a]; cbn in E1; injection E1 as -> E1; [congruence|].
        inversion H1; subst. exists a, b. cbn [length]. repeat split; auto; lia.
    + split.
      * intros [= <- <-]. exists [], l. cbn. repeat split; auto; lia.
      * intros (a & b & E1 & -> & H1 & H2). destruct a as [|y a]; cbn in E1; injection E1 as -> E1; [cbn; do 2 f_equal; lia|].
        inversion H1; subst. congruence.
Qed.
(** indices of the lines are increasing *)
Lemma first_tokens_spec d : forall i x, In x (first_tokens sp i d) ->
  exists t, (i <= fst (fst x))%nat /\ is_first_word d ((fst (fst x) - i)%nat, snd (fst x)) t /\ snd x = tx t.
Proof.
  induction d as [|l d IH]; intros i x H; [easy|]. cbn [first_tokens] in H. apply in_app_or in H as [H|H].
  - destruct (first_word sp 0 l) as [[j t]|] eqn:E; [|easy]. destruct H as [<-|[]]. apply first_word_spec in E as (a & b & E1 & E2 & E3 & E4).
    exists t. cbn [fst snd]. split; [lia|]. split; [|reflexivity]. exists l, a, b. cbn [fst snd]. rewrite Nat.sub_diag. cbn. repeat split; auto.
  - destruct (IH _ _ H) as (t & H1 & (l' & a & b & H2 & H3 & H4 & H5 & H6) & H7). exists t. split; [lia|]. split; [|exact H7].
    exists l', a, b. cbn [fst snd] in *. repeat split; auto. replace (fst (fst x) - i)%nat with (S (fst (fst x) - S i)) by lia. exact H2.
Qed.
Lemma first_tokens_complete d : forall i k j t, is_first_word d (k, j) t -> In ((i + k, j)%nat, tx t) (first_tokens sp i d).
Proof.
  induction d as [|l d IH]; intros i k j t (l' & a & b & H1 & H2 & H3 & H4 & H5); cbn [fst snd] in *; [destruct k; discriminate|].
  cbn [first_tokens]. apply in_or_app. destruct k as [|k].
  - left. injection H1 as <-. assert (E : first_word sp 0 l = Some (j, t)) by (apply first_word_spec; exists a, b; auto). rewrite E. left. now rewrite Nat.add_0_r.
  - right. replace (i + S k)%nat with (S i + k)%nat by lia. apply IH. exists l', a, b. auto.
Qed.
Lemma first_tokens_sorted d : forall i, StronglySorted (fun x y => (fst (fst x) < fst (fst y))%nat) (first_tokens sp i d)
  /\ Forall (fun x => (i <= fst (fst x))%nat) (first_tokens sp i d).
Proof.
  induction d as [|l d IH]; intros i; [split; constructor|]. destruct (IH (S i)) as [I1 I2]. cbn [first_tokens].
  destruct (first_word sp 0 l) as [[j t]|]; cbn [app].
  - split; constructor; auto; cbn [fst]; (eapply Forall_impl; [|exact I2]); cbn; intros; lia.
  - split; [exact I1|]. eapply Forall_impl; [|exact I2]. cbn. intros; lia.
Qed.

(** items: positions count the first tokens *)
Lemma items_spec ts : forall k x, In x (items parse_int k ts) ->
  exists text n, nth_error ts n = Some (it_tok x, text) /\ it_pos x = 1 + k + Z.of_nat n /\ parse_int text = Some (it_num x) /\ 0 < it_num x.
Proof.
  induction ts as [|[ij text] ts IH]; intros k x H; [easy|]. cbn [items] in H. apply in_app_or in H as [H|H].
  - unfold line_number in H. destruct (parse_int text) as [n|] eqn:E; [|easy]. destruct (0 <? n) eqn:P; [|easy]. destruct H as [<-|[]].
    exists text, 0%nat. cbn. repeat split; auto; lia.
  - destruct (IH _ _ H) as (text' & n & H1 & H2 & H3 & H4). exists text', (S n). cbn [nth_error]. repeat split; auto; lia.
Qed.
Lemma items_complete ts : forall k n ij text v, nth_error ts n = Some (ij, text) -> parse_int text = Some v -> 0 < v ->
  In (mkItem ij v (1 + k + Z.of_nat n)) (items parse_int k ts).
Proof.
  induction ts as [|[ij' text'] ts IH]; intros k [|n] ij text v H P V; try discriminate; cbn [items nth_error] in *; apply in_or_app.
  - injection H as -> ->. left. unfold line_number. rewrite P. replace (0 <? v) with true by lia. left. f_equal. lia.
  - right. replace (1 + k + Z.of_nat (S n)) with (1 + (k + 1) + Z.of_nat n) by lia. now apply (IH (k + 1) n ij text v).
Qed.
Lemma item_total a b : item_leb a b = true \/ item_leb b a = true.
Proof. unfold item_leb. lia. Qed.
Lemma item_trans a b c : item_leb a b = true -> item_leb b c = true -> item_leb a c = true.
Proof. unfold item_leb. lia. Qed.

(** sequences *)
Definition item_after (a b : item) : Prop := it_num a < it_num b /\ it_pos a <= it_pos b.
Inductive item_steps (gap : Z) : list item -> Prop :=
| Is_nil : item_steps gap []
| Is_one x : item_steps gap [x]
| Is_cons x y l : it_num y <= it_num x + 1 + gap -> item_steps gap (y :: l) -> item_steps gap (x :: y :: l).
Lemma item_steps_snoc gap l x y : item_steps gap (l ++ [x]) -> it_num y <= it_num x + 1 + gap -> item_steps gap (l ++ [x; y]).
Proof.
  induction l as [|a l IH]; cbn [app]; intros H1 H2.
  - constructor; [exact H2 | constructor].
  - destruct l as [|b l]; cbn [app] in *; inversion H1; subst; constructor; auto.
Qed.
Lemma after_snoc l x y : StronglySorted item_after (l ++ [x]) -> item_after x y -> StronglySorted item_after ((l ++ [x]) ++ [y]).
Proof.
  intros H Hxy. induction l as [|a l IH]; cbn [app] in *.
  - constructor; [constructor; constructor | constructor; [exact Hxy | constructor]].
  - inversion H as [|? ? H1 H2]; subst. constructor; [now apply IH|]. apply Forall_app. split; [exact H2|]. constructor; [|constructor].
    apply Forall_app in H2 as [_ H2]. inversion H2; subst. unfold item_after in *. lia.
Qed.
Lemma seq_fold gap rest : forall done cur prev,
  StronglySorted (fun a b => item_leb a b = true) (prev :: rest) ->
  StronglySorted item_after (concat done ++ rev (prev :: cur)) -> Forall (item_steps gap) done -> item_steps gap (rev (prev :: cur)) ->
  let '(done', cur', prev') := fold_left (seq_step gap) rest (done, cur, prev) in
  StronglySorted item_after (concat done' ++ rev (prev' :: cur')) /\ Forall (item_steps gap) done' /\ item_steps gap (rev (prev' :: cur'))
  /\ (forall x, In x (concat done' ++ rev (prev' :: cur')) -> In x (concat done ++ rev (prev :: cur)) \/ In x rest).
Proof.
  induction rest as [|x rest IH]; intros done cur prev Hs H1 H2 H3; cbn [fold_left].
  - repeat split; auto.
  - assert (L : item_leb prev x = true) by (inversion Hs as [|? ? _ F]; subst; now inversion F).
    assert (Hs1 : StronglySorted (fun a b => item_leb a b = true) (x :: rest)) by (now inversion Hs).
    assert (Hs2 : StronglySorted (fun a b => item_leb a b = true) (prev :: rest)).
    { inversion Hs as [|? ? S F]; subst. inversion S; subst. constructor; [assumption | now inversion F]. }
    cbn [seq_step]. destruct ((it_pos x <? it_pos prev) || (it_num x =? it_num prev)) eqn:E1.
    + specialize (IH done cur prev Hs2 H1 H2 H3). destruct (fold_left _ _ _) as [[done' cur'] prev']. destruct IH as (J1 & J2 & J3 & J4).
      repeat split; auto. intros y Hy. destruct (J4 y Hy); auto. right. now right.
    + assert (A : item_after prev x) by (unfold item_after, item_leb in *; lia).
      destruct ((it_num prev + 1 <=? it_num x) && (it_num x <=? it_num prev + 1 + gap)) eqn:E2.
      * specialize (IH done (prev :: cur) x Hs1). destruct (fold_left _ _ _) as [[done' cur'] prev']. destruct IH as (J1 & J2 & J3 & J4).
        -- cbn [rev] in *. rewrite !app_assoc in *. now apply after_snoc.
        -- exact H2.
        -- cbn [rev] in *. rewrite <- app_assoc. cbn [app]. apply item_steps_snoc; [exact H3 | lia].
        -- repeat split; auto. intros y Hy. destruct (J4 y Hy) as [Q|Q]; [|right; now right]. cbn [rev] in *. rewrite !in_app_iff in *. cbn in Q |- *. tauto.
      * specialize (IH (done ++ [rev (prev :: cur)]) [] x Hs1). destruct (fold_left _ _ _) as [[done' cur'] prev']. destruct IH as (J1 & J2 & J3 & J4).
        -- rewrite concat_app. cbn [concat]. rewrite app_nil_r. cbn [rev app] in *. rewrite !app_assoc in *. now apply after_snoc.
        -- apply Forall_app. split; [exact H2|]. constructor; [exact H3 | constructor].
        -- constructor.
        -- repeat split; auto. intros y Hy. destruct (J4 y Hy) as [Q|Q]; [|right; now right]. rewrite concat_app in Q. cbn [concat] in Q. rewrite app_nil_r in Q.
           cbn [rev app] in *. rewrite !in_app_iff in *. cbn in Q |- *. tauto.
Qed.
Lemma sorted_filter_concat {A} (R : A -> A -> Prop) (f : list A -> bool) l : StronglySorted R (concat l) -> StronglySorted R (concat (filter f l)).
Proof.
  assert (Sa : forall a b : list A, StronglySorted R (a ++ b) <-> StronglySorted R a /\ StronglySorted R b /\ Forall (fun x => Forall (R x) b) a).
  { induction a as [|x a IH]; intros b; cbn [app].
    - repeat split; auto; [constructor | tauto].
    - split.
      + intros H. inversion H as [|? ? H1 H2]; subst. apply IH in H1 as (I1 & I2 & I3). apply Forall_app in H2 as [H2 H3]. repeat split; auto; constructor; auto.
      + intros (H1 & H2 & H3). inversion H1; inversion H3; subst. constructor; [apply IH; auto | apply Forall_app; auto]. }
  assert (Sub : forall l x, In x (concat (filter f l)) -> In x (concat l)).
  { clear l. induction l as [|s l IH]; intros x Hx; [easy|]. cbn [filter] in Hx. cbn [concat]. apply in_or_app. destruct (f s); [|right; auto].
    cbn [concat] in Hx. apply in_app_or in Hx as [Hx|Hx]; auto. }
  induction l as [|s l IH]; [auto|]. cbn [concat filter]. intros H. apply Sa in H as (H1 & H2 & H3). destruct (f s); [|auto]. cbn [concat].
  apply Sa. repeat split; auto. rewrite Forall_forall in *. intros x Hx. specialize (H3 x Hx). rewrite Forall_forall in *. intros y Hy. apply H3. now apply Sub.
Qed.

Lemma candidate_items_spec ts min gap : exists seqs,
  candidate_items parse_int ts min gap = concat seqs
  /\ StronglySorted item_after (concat seqs) /\ Forall (fun s => item_steps gap s /\ min <= Z.of_nat (length s)) seqs
  /\ forall x, In x (concat seqs) -> In x (items parse_int 0 ts).
Proof.
  unfold candidate_items. assert (P : Permutation (sort item_leb (items parse_int 0 ts)) (items parse_int 0 ts)) by apply sort_perm.
  assert (S : StronglySorted (fun a b => item_leb a b = true) (sort item_leb (items parse_int 0 ts))) by (apply sort_sorted; [apply item_total | apply item_trans]).
  destruct (sort item_leb (items parse_int 0 ts)) as [|first rest]; [exists []; repeat split; [constructor | constructor | easy]|].
  unfold sequences. pose proof (seq_fold gap rest [] [] first S) as F. destruct (fold_left _ _ _) as [[done cur] prev].
  destruct F as (F1 & F2 & F3 & F4); [repeat constructor | constructor | constructor|].
  eexists. split; [reflexivity|]. split; [|split].
  - apply sorted_filter_concat. rewrite concat_app. cbn [concat]. rewrite app_nil_r. exact F1.
  - apply Forall_forall. intros s Hs. apply filter_In in Hs as [Hs Hm]. split; [|lia]. apply in_app_or in Hs as [Hs|[<-|[]]]; [|exact F3].
    rewrite Forall_forall in F2. now apply F2.
  - intros x Hx. apply (Permutation_in _ P). cbn [rev concat app] in F4.
    assert (Q : In x (concat done ++ rev (prev :: cur))).
    { apply in_concat in Hx as (s & Hs & Hx). apply filter_In in Hs as [Hs _]. apply in_app_or in Hs as [Hs|[<-|[]]]; apply in_or_app; [left; apply in_concat; now exists s | now right]. }
    destruct (F4 x Q) as [Q'|Q']; [destruct Q' as [<-|[]]; now left | now right].
Qed.

Lemma ss_nth {A} (R : A -> A -> Prop) l : StronglySorted R l -> forall i j x y, (i < j)%nat -> nth_error l i = Some x -> nth_error l j = Some y -> R x y.
Proof.
  induction 1 as [|a l H IH F]; intros [|i] [|j] x y L X Y; try lia; cbn in *; try discriminate.
  - injection X as ->. rewrite Forall_forall in F. apply F. now apply nth_error_In in Y.
  - apply (IH i j); auto. lia.
Qed.
Lemma ss_map {A B} (f : A -> B) (R : A -> A -> Prop) (R' : B -> B -> Prop) l :
  (forall x y, In x l -> In y l -> R x y -> R' (f x) (f y)) -> StronglySorted R l -> StronglySorted R' (map f l).
Proof.
  intros H S. induction S as [|a l S IH F]; [constructor|]. cbn [map]. constructor.
  - apply IH. intros x y Hx Hy. apply H; now right.
  - rewrite Forall_forall in *. intros y Hy. apply in_map_iff in Hy as (x & <- & Hx). apply H; [now left | now right | auto].
Qed.

(** The selected tokens are first words with a positive number, further and further down
    with greater and greater numbers, made of sequences that are long enough and without
    big gaps. *)
Theorem C17_selection d min gap : exists seqs,
  candidates parse_int (first_tokens sp 0 d) min gap = map fst (concat seqs)
  /\ Forall (numbered d) (concat seqs)
  /\ StronglySorted after (concat seqs)
  /\ Forall (fun s => steps gap s /\ min <= Z.of_nat (length s)) seqs.
Proof.
  destruct (candidate_items_spec (first_tokens sp 0 d) min gap) as (seqs & E & S & F & I).
  pose (f := fun x => (it_tok x, it_num x)). exists (map (map f) seqs). rewrite <- concat_map. split; [|split; [|split]].
  - unfold candidates. rewrite E, map_map. reflexivity.
  - apply Forall_forall. intros y Hy. apply in_map_iff in Hy as (x & <- & Hx). apply I, items_spec in Hx as (text & n & H1 & H2 & H3 & H4).
    apply nth_error_In in H1. apply first_tokens_spec in H1 as (t & _ & H5 & H6). exists t. cbn [fst snd f] in *. rewrite Nat.sub_0_r in H5.
    rewrite <- surjective_pairing in H5. repeat split; auto. now rewrite <- H6.
  - refine (ss_map f item_after after _ _ S). intros x y Hx Hy [A1 A2]. apply I, items_spec in Hx as (tx1 & n1 & X1 & X2 & X3 & _), Hy as (tx2 & n2 & Y1 & Y2 & Y3 & _).
    split; [|exact A1]. cbn [fst f].
    assert (L : (n1 < n2)%nat).
    { destruct (Nat.eq_dec n1 n2) as [<-|]; [|lia]. exfalso. rewrite X1 in Y1. injection Y1 as Q1 Q2.
      assert (it_num x = it_num y) by congruence. lia. }
    apply (ss_nth _ _ (proj1 (first_tokens_sorted d 0)) n1 n2 _ _ L X1 Y1).
  - apply Forall_forall. intros s' Hs. apply in_map_iff in Hs as (s & <- & Hs). rewrite Forall_forall in F. destruct (F s Hs) as [F1 F2]. rewrite map_length. split; [|exact F2].
    clear - F1. induction F1 as [| |x y l Hxy F1 IH]; cbn [map]; constructor; auto.
Qed.

(** two strictly sorted lists with the same elements are equal *)
Lemma ss_unique {A} (R : A -> A -> Prop) (irr : forall x, ~ R x x) (asym : forall x y, R x y -> ~ R y x) l1 : forall l2,
  StronglySorted R l1 -> StronglySorted R l2 -> (forall x, In x l1 <-> In x l2) -> l1 = l2.
Proof.
  induction l1 as [|a l1 IH]; intros [|b l2] S1 S2 H.
  - reflexivity.
  - destruct (proj2 (H b)); now left.
  - destruct (proj1 (H a)); now left.
  - inversion S1 as [|? ? S1' F1]; inversion S2 as [|? ? S2' F2]; subst. rewrite Forall_forall in F1, F2.
    assert (a = b) as <-.
    { destruct (proj1 (H a)) as [|Ha]; [now left | now symmetry|]. destruct (proj2 (H b)) as [|Hb]; [now left | assumption|].
      exfalso. apply (asym a b); auto. }
    f_equal. apply IH; auto. intros x. split; intros Hx.
    + destruct (proj1 (H x)) as [<-|]; [now right | exfalso; now apply (irr a), F1 | assumption].
    + destruct (proj2 (H x)) as [<-|]; [now right | exfalso; now apply (irr a), F2 | assumption].
Qed.
Lemma items_sorted ts : forall k, StronglySorted (fun x y => (fst (fst x) < fst (fst y))%nat) ts ->
  StronglySorted (fun a b => (fst (it_tok a) < fst (it_tok b))%nat /\ it_pos a < it_pos b) (items parse_int k ts).
Proof.
  induction ts as [|[ij text] ts IH]; intros k H; cbn [items]; [constructor|]. inversion H as [|? ? H1 H2]; subst.
  destruct (line_number parse_int text) as [n|]; cbn [app]; [|now apply IH]. constructor; [now apply IH|].
  apply Forall_forall. intros x Hx. apply items_spec in Hx as (text' & m & E & P & _). cbn [it_tok it_pos]. split; [|lia].
  rewrite Forall_forall in H2. apply nth_error_In in E. apply (H2 _ E).
Qed.
Lemma seq_all gap rest : forall cur prev, StronglySorted item_after (prev :: rest) -> item_steps gap (prev :: rest) ->
  (forall a b, In a (prev :: rest) -> In b (prev :: rest) -> item_after a b -> it_pos a < it_pos b) ->
  fold_left (seq_step gap) rest ([], cur, prev) = ([], tl (rev (prev :: rest)) ++ cur, hd prev (rev (prev :: rest))).
Proof.
  induction rest as [|x rest IH]; intros cur prev S T P; cbn [fold_left]; [reflexivity|].
  inversion S as [|? ? S1 F]; subst. inversion F as [|? ? A F']; subst. inversion T as [| |? ? ? T1 T2]; subst.
  assert (L : it_pos prev < it_pos x) by (apply P; [now left | right; now left | exact A]).
  cbn [seq_step]. replace ((it_pos x <? it_pos prev) || (it_num x =? it_num prev)) with false by (unfold item_after in A; lia).
  replace ((it_num prev + 1 <=? it_num x) && (it_num x <=? it_num prev + 1 + gap)) with true by (unfold item_after in A; lia).
  rewrite IH; [|exact S1 | exact T2 | intros; apply P; auto; now right].
  assert (E : rev (prev :: x :: rest) = rev (x :: rest) ++ [prev]) by reflexivity. rewrite E.
  assert (Q : rev (x :: rest) <> []) by (cbn; intros Q; destruct (rev rest); discriminate).
  destruct (rev (x :: rest)) as [|q l]; [easy|]. cbn [app tl hd]. now rewrite <- app_assoc.
Qed.

Lemma numbered_items d x : numbered d x <-> In x (map (fun x => (it_tok x, it_num x)) (items parse_int 0 (first_tokens sp 0 d))).
Proof.
  split.
  - intros (t & H1 & H2 & H3). destruct x as [[k j] v]. cbn [fst snd] in *. apply (first_tokens_complete d 0) in H1. apply In_nth_error in H1 as (n & H1).
    apply in_map_iff. eexists. split; [|apply (items_complete _ 0 n _ _ v H1 H2 H3)]. reflexivity.
  - intros Hx. apply in_map_iff in Hx as (y & <- & Hy). apply items_spec in Hy as (text & n & H1 & H2 & H3 & H4).
    apply nth_error_In in H1. apply first_tokens_spec in H1 as (t & _ & H5 & H6). exists t. cbn [fst snd] in *. rewrite Nat.sub_0_r in H5.
    rewrite <- surjective_pairing in H5. repeat split; auto. now rewrite <- H6.
Qed.

(** If the numbered first words are one such sequence, all are selected. *)
Theorem C17_all d min gap L :
  (forall x, In x L <-> numbered d x) -> StronglySorted after L -> steps gap L -> min <= Z.of_nat (length L) ->
  candidates parse_int (first_tokens sp 0 d) min gap = map fst L.
Proof.
  intros HL S T M. unfold candidates, candidate_items. set (its := items parse_int 0 (first_tokens sp 0 d)).
  pose (f := fun x => (it_tok x, it_num x)).
  assert (Si : StronglySorted (fun a b => (fst (it_tok a) < fst (it_tok b))%nat /\ it_pos a < it_pos b) its) by apply items_sorted, first_tokens_sorted.
  assert (Ei : map f its = L).
  { apply (ss_unique (fun x y => (fst (fst x) < fst (fst y))%nat)); [intros; lia | intros; lia | | |].
    - apply (ss_map f (fun a b => (fst (it_tok a) < fst (it_tok b))%nat /\ it_pos a < it_pos b)); [|exact Si]. now intros x y _ _ [H _].
    - clear - S. induction S as [|x l S IH F]; constructor; auto. eapply Forall_impl; [|exact F]. now intros y [H _].
    - intros x. rewrite HL. symmetry. apply numbered_items. }
  assert (Sa : StronglySorted item_after its).
  { clear - Si Ei S. subst L. revert S. induction Si as [|a l Si IH F]; intros S; [constructor|]. cbn [map] in S. inversion S as [|? ? S1 F1]; subst.
    constructor; [now apply IH|]. rewrite Forall_forall in *. intros x Hx. specialize (F x Hx). specialize (F1 (f x) (in_map f _ _ Hx)). destruct F as [_ F], F1 as [_ F1]. unfold f in F1. cbn [fst snd] in F1. split; lia. }
  assert (Ss : sort item_leb its = its).
  { apply sort_id. clear - Sa. induction Sa as [|a l S IH F]; constructor; auto. eapply Forall_impl; [|exact F]. intros b [B1 B2]. assert (Q : (it_num a <? it_num b) = true) by lia. unfold PropClusters.le, item_leb. rewrite Q. reflexivity. }
  assert (Ti : item_steps gap its).
  { clear - T Ei. clearbody its. subst L. induction its as [|a [|b l] IH]; [constructor | constructor|]. cbn [map] in *. inversion T; subst. constructor; [assumption | now apply IH]. }
  rewrite Ss. rewrite <- Ei. rewrite map_map. unfold f. cbn [fst]. rewrite <- Ei, map_length in M. clear Ei Ss HL S T.
  destruct its as [|first rest]; [reflexivity|]. unfold sequences. rewrite seq_all; auto.
  - rewrite app_nil_r. cbn [app].
    assert (E : hd first (rev (first :: rest)) :: tl (rev (first :: rest)) = rev (first :: rest)).
    { destruct (rev (first :: rest)) eqn:E; [|reflexivity]. apply (f_equal (@length _)) in E. rewrite rev_length in E. discriminate. }
    rewrite E, rev_involutive. cbn [filter]. replace (min <=? Z.of_nat (length (first :: rest))) with true by lia. cbn [concat]. now rewrite app_nil_r.
  - intros a b Ha Hb [A1 A2]. apply In_nth_error in Ha as (n & Ha), Hb as (m & Hb).
    destruct (Nat.lt_total n m) as [H|[->|H]].
    + apply (ss_nth _ _ Si n m a b H Ha Hb).
    + rewrite Ha in Hb. injection Hb as ->. lia.
    + pose proof (ss_nth _ _ Sa m n b a H Hb Ha) as [B _]. lia.
Qed.

(** C18 *)
Lemma last_set_tags tagv l ij : last_set LMain ij (map (fun p => (LMain, p, Some tagv)) l)
  = if existsb (fun p => Nat.eqb (fst p) (fst ij) && Nat.eqb (snd p) (snd ij)) l then Some (Some tagv) else None.
Proof.
  unfold last_set. rewrite <- List.map_rev. assert (E : existsb (fun p => Nat.eqb (fst p) (fst ij) && Nat.eqb (snd p) (snd ij)) l
    = existsb (fun p => Nat.eqb (fst p) (fst ij) && Nat.eqb (snd p) (snd ij)) (rev l)).
  { apply Bool.eq_iff_eq_true. rewrite !existsb_exists. split; intros (x & H1 & H2); exists x; split; auto; [now apply -> in_rev | now apply in_rev]. }
  rewrite E. clear E. induction (rev l) as [|p l' IH]; [reflexivity|]. cbn [map find existsb]. unfold op_at at 1. cbn [fst snd andb].
  destruct (Nat.eqb (fst p) (fst ij) && Nat.eqb (snd p) (snd ij)); [reflexivity|]. cbn [andb orb]. exact IH.
Qed.
Lemma last_set_sub tagv l ij : last_set LSub ij (map (fun p => (LMain, p, Some tagv)) l) = None.
Proof. unfold last_set. rewrite <- List.map_rev. induction (rev l) as [|p l' IH]; [reflexivity|]. cbn. exact IH. Qed.

(** the page looks numbered: enough candidates and they are no small part *)
Definition looks_numbered (min : Z) (below : Z -> Z -> bool) (selected : list (nat * nat)) (lines : Z) : Prop :=
  min <= Z.of_nat (length selected) /\ below (Z.of_nat (length selected)) lines = false.

(** number of lines with words *)
Definition word_lines (d : doc) : Z := Z.of_nat (length (filter (fun l => existsb (fun t => negb (is_space sp t)) l) d)).
Lemma first_tokens_length d : forall i, Z.of_nat (length (first_tokens sp i d)) = word_lines d.
Proof.
  unfold word_lines. induction d as [|l d IH]; intros i; [reflexivity|]. cbn [first_tokens filter]. rewrite app_length.
  assert (E : existsb (fun t => negb (is_space sp t)) l = match first_word sp 0 l with Some _ => true | None => false end).
  { generalize 0%nat. clear. induction l as [|t l IH]; intros j; [reflexivity|]. cbn. destruct (is_space sp t); cbn; [apply IH | reflexivity]. }
  rewrite E. specialize (IH (S i)). destruct (first_word sp 0 l) as [[j t]|]; cbn [length]; lia.
Qed.
Theorem C18_tagged c below d : c_threshold c = TNumber below -> (0 < c_min c \/ word_lines d <> 0) ->
  exists d', annotate_line_numbers sp parse_int c d = Ok d' /\ same_layout d d' /\
  let selected := candidates parse_int (first_tokens sp 0 d) (c_min c) (c_gap c) in
  (~ looks_numbered (c_min c) below selected (word_lines d) -> d' = d)
  /\ (looks_numbered (c_min c) below selected (word_lines d) ->
      forall ij t, tok_at d ij = Some t -> exists t', tok_at d' ij = Some t' /\ given LSub t' = given LSub t
        /\ (In ij selected -> given LMain t' = Some (c_tag c)) /\ (~ In ij selected -> given LMain t' = given LMain t)).
Proof.
  intros Hc Hz. unfold annotate_line_numbers, find_line_numbers. rewrite Hc, first_tokens_length. cbn zeta.
  set (sel := candidates parse_int (first_tokens sp 0 d) (c_min c) (c_gap c)).
  assert (Refl : same_layout d d) by (unfold same_layout; clear; induction d as [|l d IH]; constructor; auto; induction l; constructor; auto; split; reflexivity).
  destruct (Z.of_nat (length sel) <? c_min c) eqn:E1.
  - exists d. split; [reflexivity|]. split; [exact Refl|]. split; [reflexivity|]. intros [H _]. lia.
  - destruct (word_lines d =? 0) eqn:E2.
    + exfalso. destruct Hz as [Hz|Hz]; [|lia]. assert (sel = []) as E3.
      { unfold sel. assert (first_tokens sp 0 d = []) as ->; [|reflexivity]. pose proof (first_tokens_length d 0). destruct (first_tokens sp 0 d); [reflexivity|]. cbn [length] in *. lia. }
      rewrite E3 in E1. change (Z.of_nat (length [])) with 0 in E1. apply Z.ltb_ge in E1. lia.
    + destruct (below (Z.of_nat (length sel)) (word_lines d)) eqn:E3.
      * exists d. split; [reflexivity|]. split; [exact Refl|]. split; [reflexivity|]. intros [_ H]. congruence.
      * cbn [bind]. eexists. split; [reflexivity|].
        assert (R : fold_left (fun d ij => set_tag sp LMain ij (Some (c_tag c)) d) sel d = run sp (map (fun p => (LMain, p, Some (c_tag c))) sel) d).
        { unfold run. clearbody sel. clear. revert d. induction sel as [|p l IH]; intros d; [reflexivity|]. cbn [fold_left map fst snd]. apply IH. }
        rewrite R. split; [apply run_layout|]. split; [intros H; exfalso; apply H; split; [lia | exact E3]|].
        intros _ ij t Ht. destruct (C10_last_set sp (map (fun p => (LMain, p, Some (c_tag c))) sel) d ij t LMain Ht) as (t' & H1 & H2).
        destruct (C10_last_set sp (map (fun p => (LMain, p, Some (c_tag c))) sel) d ij t LSub Ht) as (t2 & H3 & H4).
        assert (t2 = t') as -> by congruence. rewrite last_set_sub in H4. rewrite last_set_tags in H2. exists t'. split; [exact H1|]. split; [exact H4|].
        set (b := existsb _ sel) in H2. assert (B : b = true <-> In ij sel).
        { unfold b. rewrite existsb_exists. split.
          - intros ([k j] & I1 & I2). cbn [fst snd] in I2. apply andb_true_iff in I2 as [I2 I3]. apply Nat.eqb_eq in I2, I3. subst. now destruct ij.
          - intros I. exists ij. split; [exact I|]. now rewrite !Nat.eqb_refl. }
        split; intros I; destruct b; auto; try congruence; try tauto; try (exfalso; apply I; now apply B). apply B in I. discriminate.
Qed.
(** with no lines and no minimum there is an exception *)
Theorem C18_no_lines c d : c_min c <= 0 -> word_lines d = 0 -> annotate_line_numbers sp parse_int c d = Err ZeroDivisionError.
Proof.
  intros H1 H2. unfold annotate_line_numbers, find_line_numbers. rewrite first_tokens_length, H2. cbn zeta.
  match goal with |- context [?a <? c_min c] => assert ((a <? c_min c) = false) as -> by (apply Z.ltb_ge; lia) end. reflexivity.
Qed.
End LineNumbers.

(** The ratio given as an option is a text: every page with enough candidates ends in
    an exception, and the gap option has no effect at all. *)
Definition ascii_int (s : str) : option Z :=
  match s with
  | [] => None
  | _ => if forallb ascii_digit s then Some (fold_left (fun n c => n * 10 + (Z.of_N c - 48)) s 0) else None
  end.
Definition word (s : string) : tok := mkTok (u s) None None None None (Some (u " ")).
Definition page (l : list string) : doc := map (fun s => [word s; word "text"]) l.
Definition half (n m : Z) : bool := 2 * n <? m.

Theorem C18_ratio_option_refuted : forall sp parse_int below o r d,
  o_ratio o = Some r -> 0 < o_min o -> o_min o <= Z.of_nat (length (candidates parse_int (first_tokens sp 0 d) (o_min o) 10)) ->
  annotate_line_numbers sp parse_int (cli_config below o) d = Err TypeError.
Proof.
  intros sp parse_int below o r d Hr Hm Hn. unfold annotate_line_numbers, find_line_numbers, cli_config. rewrite Hr. cbn zeta.
  cbn [c_min c_gap c_threshold].
  match goal with |- context [?a <? o_min o] => assert ((a <? o_min o) = false) as -> by (apply Z.ltb_ge; exact Hn) end.
  destruct (Z.of_nat (length (first_tokens sp 0 d)) =? 0) eqn:E; [|reflexivity].
  exfalso. destruct (first_tokens sp 0 d); [|cbn in E; lia]. cbn in Hn. lia.
Qed.
Theorem C18_gap_option_refuted : exists o1 o2 d, o_gap o1 = 0 /\ o_gap o2 = 100 /\ o_min o1 = o_min o2 /\ o_ratio o1 = o_ratio o2
  /\ candidates ascii_int (first_tokens ascii_space 0 d) (o_min o1) (o_gap o1) <> candidates ascii_int (first_tokens ascii_space 0 d) (o_min o2) (o_gap o2)
  /\ forall below, annotate_line_numbers ascii_space ascii_int (cli_config below o1) d = annotate_line_numbers ascii_space ascii_int (cli_config below o2) d.
Proof.
  exists (mkCli 2 0 None), (mkCli 2 100 None), (page ["5"; "6"; "20"]%string).
  repeat split; try reflexivity. vm_compute. discriminate.
Qed.

Definition sample : doc := page ["1"; "x"; "2"; "14"; "7"; "60"; "61"; "y"]%string.
Example C17_ex : candidates ascii_int (first_tokens ascii_space 0 sample) 2 3 = [(0, 0); (2, 0); (5, 0); (6, 0)]%nat.
Proof. vm_compute. reflexivity. Qed.
Example C17_all_ex : exists L, (length L = 3)%nat
  /\ (forall x, In x L <-> numbered ascii_space ascii_int (page ["1"; "x"; "2"; "7"]%string) x) /\ StronglySorted after L /\ steps 4 L.
Proof.
  exists [((0, 0)%nat, 1); ((2, 0)%nat, 2); ((3, 0)%nat, 7)]. split; [reflexivity|]. split; [intros x; rewrite numbered_items; vm_compute; tauto|].
  repeat constructor; cbn; lia.
Qed.
Example C18_ex : exists d', annotate_line_numbers ascii_space ascii_int (mkConfig (u "line_no") 2 3 (TNumber half)) sample = Ok d'
  /\ map (fun l => map tag l) d' = [[Some (u "line_no"); None]; [None; None]; [Some (u "line_no"); None]; [None; None]; [None; None];
       [Some (u "line_no"); None]; [Some (u "line_no"); None]; [None; None]].
Proof. eexists. split; vm_compute; reflexivity. Qed.
Example C18_ratio_ex : Z.le 2 (Z.of_nat (length (candidates ascii_int (first_tokens ascii_space 0 sample) 2 10))).
Proof. vm_compute. intuition discriminate. Qed.

Print Assumptions C17_selection.
Print Assumptions C17_all.
Print Assumptions C18_tagged.
Print Assumptions C18_no_lines.
Print Assumptions C18_ratio_option_refuted.
Print Assumptions C18_gap_option_refuted.
