(** C16: extending tags over a line *)
From Verif Require Import Base ModelTags ProofTags ModelExtend SpecTeiWrite.

(* ---------------------------------------------------------------- *)
(** ** Specification *)

(** continuation of an entity: with prefixes in use the inside tag *)
Definition prefixed (t : ostr) : bool := truthy (fst (split_tag_prefix t)).
Definition inside (t : ostr) : ostr :=
  match value t with Some v => if prefixed t then Some (u "i-" ++ v) else t | None => t end.
Definition beginning (t : ostr) : ostr :=
  match value t with Some v => if prefixed t then Some (u "b-" ++ v) else t | None => t end.

(** number of tags at the start of a list with the value of the first *)
Fixpoint prefix_len {A} (f : A -> bool) (l : list A) : nat :=
  match l with [] => 0 | x :: l' => if f x then S (prefix_len f l') else 0 end.
Definition run_after (l : list ostr) : nat :=
  match l with [] => 0 | t :: _ => prefix_len (same_value t) l end.
(** ... at the end of a list *)
Definition run_before (l : list ostr) : nat := run_after (rev l).

Section Spec.
Variables extend merge : str -> bool.   (* for which fields *)
Definition oapp (f : str -> bool) (o : ostr) : bool := match o with Some v => f v | None => false end.

(** the last group of equal values of a list *)
Definition last_run (l : list ostr) : list ostr := skipn (length l - run_before l) l.
(** the tag that continues after [l]; if its last group is merged it counts as
    one entity with the prefix of its first tag *)
Definition cont (l : list ostr) : ostr :=
  let run := last_run l in
  let first := hd None run in
  if oapp merge (value first) && prefixed first then inside first else inside (last run None).

(** How an untagged gap between [pre] and [post] is filled; None: not at all. *)
Definition fill (pre : list ostr) (n : nat) (post : list ostr) : option (list ostr) :=
  match rev pre, post with
  | l :: _, r :: _ =>
      if ostreq (value l) (value r) && oapp merge (value l) then Some (repeat (cont pre) n) else None
  | l :: _, [] =>
      if oapp extend (value l) && Nat.ltb n (run_before pre) then Some (repeat (cont pre) n) else None
  | [], r :: _ =>
      if oapp extend (value r) && Nat.ltb n (run_after post)
      then Some (beginning r :: repeat (inside r) (n - 1)) else None
  | [], [] => None
  end.
Definition gap_result (pre : list ostr) (n : nat) (post : list ostr) : list ostr :=
  match fill pre n post with Some ts => ts | None => repeat None n end.

(** trailing untagged positions of [pre] *)
Definition gap_len (pre : list ostr) : nat := prefix_len (fun t => negb (truthy t)) (rev pre).
(** the gap right before a group of tags is filled *)
Definition filled_before (pre run post : list ostr) : bool :=
  let n := gap_len pre in
  negb (Nat.eqb n 0) &&
  match fill (firstn (length pre - n) pre) n (run ++ post) with Some _ => true | None => false end.
(** tags of one group of equal values *)
Definition run_result (pre run post : list ostr) : list ostr :=
  match run with
  | [] => []
  | t :: rest =>
      (if filled_before pre run post then inside t else t) ::
      (if oapp merge (value t) && prefixed t then repeat (inside t) (length rest) else rest)
  end.
End Spec.

(** tags as they occur: none, or with a non-empty value *)
Definition plain (t : ostr) : Prop := t = None \/ truthy (value t) = true.
(** [run] is a maximal group of equal values in [pre ++ run ++ post] *)
Definition maximal (pre run post : list ostr) : Prop :=
  run <> [] /\ Forall (fun t => value t = value (hd None run)) run /\
  match rev pre with [] => True | t :: _ => value t <> value (hd None run) end /\
  match post with [] => True | t :: _ => value t <> value (hd None run) end.

(* ---------------------------------------------------------------- *)
(** ** tags *)
Lemma plain_cases t : plain t ->
  t = None \/ (exists c v, t = Some (u "b-" ++ c :: v)) \/ (exists c v, t = Some (u "i-" ++ c :: v)) \/
  (exists c v, t = Some (c :: v) /\ split_tag_prefix t = (None, t)).
Proof.
  intros [->|H]; [now left|]. right. destruct (split_cases t) as [(v & -> & E)|[(v & -> & E)|[E _]]].
  - left. unfold value in H. rewrite E in H. destruct v; [discriminate|]. eauto.
  - right; left. unfold value in H. rewrite E in H. destruct v; [discriminate|]. eauto.
  - right; right. unfold value in H. rewrite E in H. destruct t as [[|c v]|]; try discriminate.
    exists c, v. auto.
Qed.
Lemma to_inside_inside t : plain t -> to_inside_tag t = inside t.
Proof.
  intros H. destruct (plain_cases t H) as [->|[(c & v & ->)|[(c & v & ->)|(c & v & -> & E)]]]; try reflexivity.
  unfold to_inside_tag, inside, prefixed, value. rewrite E. reflexivity.
Qed.
Lemma inside_value t : plain t -> value (inside t) = value t.
Proof.
  intros H. destruct (plain_cases t H) as [->|[(c & v & ->)|[(c & v & ->)|(c & v & -> & E)]]]; try reflexivity.
  unfold inside, prefixed, value. rewrite E. cbn [fst snd truthy]. now rewrite E.
Qed.
Lemma inside_plain t : plain t -> plain (inside t).
Proof.
  intros H. destruct H as [->|H]; [now left|]. right. rewrite inside_value; [exact H|now right].
Qed.
Lemma inside_inside t : plain t -> inside (inside t) = inside t.
Proof.
  intros H. destruct (plain_cases t H) as [->|[(c & v & ->)|[(c & v & ->)|(c & v & -> & E)]]]; try reflexivity.
  unfold inside at 2 3. unfold prefixed, value. rewrite E. cbn [fst snd truthy].
  unfold inside, prefixed, value. rewrite E. reflexivity.
Qed.
Lemma plain_truthy t : plain t -> truthy t = truthy (value t).
Proof.
  intros H. destruct (plain_cases t H) as [->|[(c & v & ->)|[(c & v & ->)|(c & v & -> & E)]]]; try reflexivity.
  unfold value. now rewrite E.
Qed.
Lemma plain_value_none t : plain t -> value t = None -> t = None.
Proof.
  intros H. destruct (plain_cases t H) as [->|[(c & v & ->)|[(c & v & ->)|(c & v & -> & E)]]]; try reflexivity; try discriminate;
  unfold value; rewrite E; discriminate.
Qed.
Lemma begin_inside_eq t n : plain t -> t <> None -> n <> 0 ->
  to_begin_inside_tags t n = beginning t :: repeat (inside t) (n - 1).
Proof.
  intros H Ht Hn. destruct n as [|n]; [congruence|]. cbn [to_begin_inside_tags Nat.sub]. rewrite Nat.sub_0_r.
  destruct (plain_cases t H) as [->|[(c & v & ->)|[(c & v & ->)|(c & v & -> & E)]]]; try reflexivity.
  unfold beginning, inside, prefixed, value. rewrite E. reflexivity.
Qed.

(* ---------------------------------------------------------------- *)
(** ** grouping *)
Definition differ (a b : list ostr) : Prop :=
  match rev a, b with t :: _, t' :: _ => value t <> value t' | _, _ => True end.
Lemma same_value_true a b : same_value a b = true <-> value a = value b.
Proof. apply ostreq_true. Qed.
Lemma same_value_false a b : same_value a b = false <-> value a <> value b.
Proof. apply ostreq_false. Qed.

Lemma group_by_cons {A} (same : A -> A -> bool) x l : exists g gs, group_by same (x :: l) = (x :: g) :: gs.
Proof.
  cbn. destruct (group_by same l) as [|[|y g] gs]; eauto. destruct (same x y); eauto.
Qed.
Lemma differ_cons x y a b : differ (x :: y :: a) b <-> differ (y :: a) b.
Proof.
  unfold differ. cbn [rev]. destruct (rev a ++ [y]) eqn:E; [destruct (rev a); discriminate|]. reflexivity.
Qed.
Lemma group_by_app a : forall b, differ a b ->
  group_by same_value (a ++ b) = group_by same_value a ++ group_by same_value b.
Proof.
  induction a as [|x a IH]; intros b H; [reflexivity|]. destruct a as [|y a].
  - cbn [app]. destruct b as [|z b]; [reflexivity|].
    destruct (group_by_cons same_value z b) as (g & gs & E). cbn [group_by] in *. rewrite E.
    unfold differ in H. cbn in H. apply same_value_false in H. rewrite H. reflexivity.
  - cbn [app]. apply differ_cons in H. specialize (IH b H). cbn [app] in IH.
    change (group_by same_value (x :: y :: a ++ b)) with
      (match group_by same_value (y :: a ++ b) with
       | (z :: g) :: gs => if same_value x z then (x :: z :: g) :: gs else [x] :: (z :: g) :: gs
       | gs => [x] :: gs end).
    change (group_by same_value (x :: y :: a)) with
      (match group_by same_value (y :: a) with
       | (z :: g) :: gs => if same_value x z then (x :: z :: g) :: gs else [x] :: (z :: g) :: gs
       | gs => [x] :: gs end).
    rewrite IH. destruct (group_by_cons same_value y a) as (g & gs & E). rewrite E. cbn [app].
    destruct (same_value x y); reflexivity.
Qed.
Lemma group_by_uniform l v : l <> [] -> Forall (fun t => value t = v) l -> group_by same_value l = [l].
Proof.
  intros Hn H. induction H as [|x l Hx H IH]; [congruence|]. destruct l as [|y l]; [reflexivity|].
  change (group_by same_value (x :: y :: l)) with
      (match group_by same_value (y :: l) with
       | (z :: g) :: gs => if same_value x z then (x :: z :: g) :: gs else [x] :: (z :: g) :: gs
       | gs => [x] :: gs end).
  rewrite IH by discriminate. inversion H; subst.
  assert (E : same_value x y = true) by (apply same_value_true; congruence). now rewrite E.
Qed.
Lemma group_by_concat {A} (same : A -> A -> bool) l : concat (group_by same l) = l.
Proof.
  induction l as [|x l IH]; [reflexivity|]. cbn. destruct (group_by same l) as [|[|y g] gs]; cbn in *;
    [congruence|congruence|]. destruct (same x y); cbn; congruence.
Qed.

(** leading group *)
Lemma prefix_len_le {A} f (l : list A) : prefix_len f l <= length l.
Proof. induction l as [|x l IH]; cbn; [lia|]. destruct (f x); lia. Qed.
Lemma prefix_split {A} (f : A -> bool) l : Forall (fun x => f x = true) (firstn (prefix_len f l) l) /\
  match skipn (prefix_len f l) l with [] => True | x :: _ => f x = false end.
Proof.
  induction l as [|x l [IH1 IH2]]; cbn; [split; [constructor|exact I]|].
  destruct (f x) eqn:E; cbn; [split; [constructor; assumption|assumption]|]. split; [constructor|exact E].
Qed.
Lemma run_after_split l : l <> [] ->
  exists run rest, l = run ++ rest /\ length run = run_after l /\ run <> [] /\
    hd None run = hd None l /\
    Forall (fun t => value t = value (hd None l)) run /\
    match rest with [] => True | t :: _ => value t <> value (hd None l) end.
Proof.
  intros Hl. destruct l as [|t l]; [congruence|]. unfold run_after.
  destruct (prefix_split (same_value t) (t :: l)) as [H1 H2].
  exists (firstn (prefix_len (same_value t) (t :: l)) (t :: l)), (skipn (prefix_len (same_value t) (t :: l)) (t :: l)).
  split; [symmetry; apply firstn_skipn|]. split; [apply firstn_length_le, prefix_len_le|].
  assert (E : same_value t t = true) by now apply same_value_true.
  cbn [prefix_len] in *. rewrite E in *. cbn [firstn skipn hd] in *.
  split; [discriminate|]. split; [reflexivity|]. split.
  - eapply Forall_impl; [|exact H1]. cbn. intros a Ha. symmetry. now apply same_value_true.
  - destruct (skipn _ l) as [|z r]; [exact I|]. apply same_value_false in H2. congruence.
Qed.
Lemma Forall_hd_eq l v : l <> [] -> Forall (fun t => value t = v) l -> value (hd None l) = v.
Proof. intros Hl H. destruct H; [congruence|assumption]. Qed.
Lemma last_run_split l : l <> [] ->
  exists rest run, l = rest ++ run /\ length run = run_before l /\ run = last_run l /\ run <> [] /\
    last run None = last l None /\
    Forall (fun t => value t = value (last l None)) run /\ differ rest run.
Proof.
  intros Hl. assert (Hr : rev l <> []) by (intros E; apply Hl; rewrite <- (rev_involutive l), E; reflexivity).
  destruct (run_after_split (rev l) Hr) as (run & rest & E1 & E2 & E3 & E4 & E5 & E6).
  assert (El : l = rev rest ++ rev run) by (rewrite <- (rev_involutive l), E1; apply rev_app_distr).
  assert (Hh : forall k : list ostr, hd None k = last (rev k) None).
  { intros [|x k]; [reflexivity|]. cbn [rev]. now rewrite last_last. }
  assert (Hlast : last l None = hd None (rev l)) by (rewrite Hh, rev_involutive; reflexivity).
  exists (rev rest), (rev run). split; [exact El|]. split; [rewrite rev_length; exact E2|].
  split. { unfold last_run, run_before. rewrite <- E2. rewrite El at 1 2. rewrite app_length, !rev_length.
    replace (length rest + length run - length run) with (length (rev rest)) by (rewrite rev_length; lia).
    rewrite skipn_app, Nat.sub_diag, skipn_all. reflexivity. }
  split; [intros E; apply E3; rewrite <- (rev_involutive run), E; reflexivity|].
  split; [rewrite <- Hh, Hlast; exact E4|].
  split; [rewrite Hlast; now apply Forall_rev|].
  unfold differ. rewrite rev_involutive. destruct rest as [|t rest]; [exact I|].
  destruct (rev run) as [|x k] eqn:Ex; [exact I|].
  assert (Hx : In x run) by (rewrite in_rev, Ex; now left). rewrite Forall_forall in E5.
  rewrite (E5 x Hx). exact E6.
Qed.

(* ---------------------------------------------------------------- *)
Section Proof.
Variables extend_map merge_map : list (str * bool).
Variables default_extend default_merge : bool.
Notation ext_group := (extend_group extend_map merge_map default_extend default_merge).
Notation ext_go := (extend_go extend_map merge_map default_extend default_merge).
Notation mg := (merge_same merge_map default_merge).
Definition ext_on (v : str) : bool := enabled extend_map default_extend (Some v).
Definition merge_on (v : str) : bool := enabled merge_map default_merge (Some v).

(** groups: not empty, plain, of one value *)
Definition good (g : list ostr) : Prop :=
  g <> [] /\ Forall plain g /\ Forall (fun t => value t = value (hd None g)) g.

(** what matters about the previous group *)
Definition alike (a b : list ostr) : Prop :=
  length a = length b /\ to_inside_tag (last a None) = to_inside_tag (last b None) /\
  value (last a None) = value (last b None).
Definition oalike (a b : option (list ostr)) : Prop :=
  match a, b with Some x, Some y => alike x y | None, None => True | _, _ => False end.
Lemma ext_group_alike a b g n : oalike a b -> ext_group a g n = ext_group b g n.
Proof.
  unfold oalike. destruct a as [a|], b as [b|]; try contradiction; [|reflexivity].
  intros (H1 & H2 & H3). unfold extend_group. destruct (split_tag_prefix (match n with Some g0 => hd None g0 | None => None end)) as [np nv].
  change (snd (split_tag_prefix (last a None))) with (value (last a None)).
  change (snd (split_tag_prefix (last b None))) with (value (last b None)).
  rewrite H1, H2, H3. reflexivity.
Qed.
Lemma alike_refl a : alike a a.
Proof. repeat split. Qed.
Lemma inside_first_alike g : good g -> alike (inside_first g) g.
Proof.
  intros (H1 & H2 & H3). destruct g as [|t g]; [congruence|]. cbn [inside_first].
  inversion H2 as [|? ? Ht Hg]; subst. destruct g as [|y g]; [|repeat split].
  cbn [last]. rewrite (to_inside_inside t Ht). split; [reflexivity|]. cbn [last].
  rewrite (to_inside_inside _ (inside_plain t Ht)), inside_inside, inside_value by exact Ht.
  split; [now rewrite to_inside_inside|reflexivity].
Qed.

(** whether the first tag of group [g] is changed, given the two groups before *)
Definition chg (pp p : option (list ostr)) (g : list ostr) : bool :=
  match p with Some q => snd (ext_group pp q (Some g)) | None => false end.
Fixpoint out_go (pp p : option (list ostr)) (groups : list (list ostr)) : list (list ostr) :=
  match groups with
  | [] => []
  | g :: rest =>
      fst (ext_group p (if chg pp p g then inside_first g else g) (hd_error rest)) :: out_go p (Some g) rest
  end.
Lemma chg_tagged pp q g : truthy (hd None q) = true -> chg pp (Some q) g = false.
Proof.
  intros H. unfold chg, extend_group. destruct (split_tag_prefix _). now rewrite H.
Qed.
Lemma truthy_inside_first g : good g -> truthy (hd None (inside_first g)) = truthy (hd None g).
Proof.
  intros (H1 & H2 & _). destruct g as [|t g]; [congruence|]. cbn [inside_first hd].
  inversion H2; subst. rewrite to_inside_inside by assumption.
  rewrite plain_truthy by now apply inside_plain. rewrite inside_value by assumption. symmetry. now apply plain_truthy.
Qed.
Lemma ext_snd_inside p g n : good g -> snd (ext_group p (inside_first g) n) = snd (ext_group p g n).
Proof.
  intros Hg. unfold extend_group. destruct (split_tag_prefix _) as [np nv]. rewrite truthy_inside_first by exact Hg.
  assert (El : length (inside_first g) = length g) by (destruct g; reflexivity). rewrite El.
  destruct (truthy (hd None g)); [reflexivity|]. destruct p, n; repeat (match goal with |- context [if ?x then _ else _] => destruct x end); reflexivity.
Qed.
Lemma ext_go_out groups : forall pp p p', Forall good groups -> oalike p' p ->
  ext_go p' (match groups with g :: _ => chg pp p g | [] => false end) groups = out_go pp p groups.
Proof.
  induction groups as [|g rest IH]; intros pp p p' Hg Hp; [reflexivity|].
  inversion Hg as [|? ? H1 H2]; subst. cbn [extend_go out_go].
  rewrite (ext_group_alike _ _ _ _ Hp).
  destruct (ext_group p (if chg pp p g then inside_first g else g) (hd_error rest)) as [r c] eqn:E.
  cbn [fst]. f_equal. rewrite <- (IH p (Some g) (Some (if chg pp p g then inside_first g else g))); [|assumption|].
  - destruct rest as [|n rest]; [destruct c; reflexivity|]. cbn [hd_error] in E. f_equal.
    unfold chg at 1. replace c with (snd (ext_group p (if chg pp p g then inside_first g else g) (Some n))) by now rewrite E.
    destruct (chg pp p g); [now apply ext_snd_inside|reflexivity].
  - cbn [oalike]. destruct (chg pp p g); [now apply inside_first_alike|apply alike_refl].
Qed.
(* the loop never changes lengths *)
Lemma ext_group_length p g n : good g -> (forall q, n = Some q -> q <> []) -> length (fst (ext_group p g n)) = length g.
Proof.
  intros _ _. unfold extend_group. destruct (split_tag_prefix _) as [np nv].
  destruct (truthy (hd None g)); [reflexivity|].
  assert (B : forall t k, length (to_begin_inside_tags t k) = k).
  { intros t [|k]; [reflexivity|]. cbn [to_begin_inside_tags]. destruct (split_tag_prefix t) as [q v].
    destruct (negb (truthy q)); [apply repeat_length|]. cbn. now rewrite repeat_length. }
  destruct p, n; repeat (match goal with |- context [if ?x then _ else _] => destruct x end);
    cbn [fst]; rewrite ?repeat_length, ?B; reflexivity.
Qed.
Lemma inside_first_length g : length (inside_first g) = length g.
Proof. destruct g; reflexivity. Qed.
Lemma inside_first_good g : good g -> good (inside_first g).
Proof.
  intros (H1 & H2 & H3). destruct g as [|t g]; [congruence|]. inversion H2 as [|? ? Ht Hg]; subst.
  cbn [inside_first]. rewrite to_inside_inside by exact Ht. split; [discriminate|]. split.
  - constructor; [now apply inside_plain|exact Hg].
  - cbn [hd] in *. rewrite inside_value by exact Ht. inversion H3; subst. constructor; [now apply inside_value|assumption].
Qed.
Lemma out_go_length groups : forall pp p, Forall good groups ->
  length (concat (out_go pp p groups)) = length (concat groups).
Proof.
  induction groups as [|g rest IH]; intros pp p Hg; [reflexivity|]. inversion Hg as [|? ? H1 H2]; subst.
  cbn [out_go concat]. rewrite !app_length, IH by assumption. f_equal.
  rewrite ext_group_length.
  - destruct (chg pp p g); [apply inside_first_length|reflexivity].
  - destruct (chg pp p g); [now apply inside_first_good|assumption].
  - destruct rest as [|q rest]; cbn [hd_error]; [discriminate|]. intros q' [= <-]. inversion H2 as [|? ? [Hq _] _]; assumption.
Qed.

(** the groups before *)
Definition lst (p : option (list ostr)) (gs : list (list ostr)) : option (list ostr) :=
  match rev gs with [] => p | x :: _ => Some x end.
Definition lst2 (pp p : option (list ostr)) (gs : list (list ostr)) : option (list ostr) :=
  match rev gs with [] => pp | [_] => p | _ :: x :: _ => Some x end.
Lemma out_go_at g2 g : forall g1 pp p, Forall good (g1 ++ g :: g2) ->
  exists o1 o2, out_go pp p (g1 ++ g :: g2) =
    o1 ++ fst (ext_group (lst p g1) (if chg (lst2 pp p g1) (lst p g1) g then inside_first g else g) (hd_error g2)) :: o2 /\
    length (concat o1) = length (concat g1) /\ length (concat o2) = length (concat g2).
Proof.
  induction g1 as [|x g1 IH]; intros pp p Hg.
  - exists [], (out_go p (Some g) g2). split; [reflexivity|]. split; [reflexivity|]. apply out_go_length.
    inversion Hg; assumption.
  - inversion Hg as [|? ? Hx Hg']; subst. destruct (IH p (Some x) Hg') as (o1 & o2 & E1 & E2 & E3).
    cbn [app out_go]. rewrite E1.
    set (first := fst (ext_group p (if chg pp p x then inside_first x else x) (hd_error (g1 ++ g :: g2)))).
    exists (first :: o1), o2. split.
    + cbn [app]. f_equal. f_equal. f_equal.
      assert (L : lst (Some x) g1 = lst p (x :: g1)).
      { unfold lst. cbn [rev]. destruct (rev g1); reflexivity. }
      assert (L2 : lst2 p (Some x) g1 = lst2 pp p (x :: g1)).
      { unfold lst2. cbn [rev]. destruct (rev g1) as [|? [|? ?]]; reflexivity. }
      now rewrite L, L2.
    + split; [|exact E3]. cbn [concat]. rewrite !app_length, E2. f_equal. unfold first.
      rewrite ext_group_length.
      * destruct (chg pp p x); [apply inside_first_length|reflexivity].
      * destruct (chg pp p x); [now apply inside_first_good|assumption].
      * intros q Hq. destruct g1 as [|y g1]; cbn in Hq; injection Hq as <-; inversion Hg' as [|? ? [Hh _] _]; assumption.
Qed.

(** merging keeps groups good *)
Lemma mg_facts g : good g -> good (mg g) /\ length (mg g) = length g /\ hd None (mg g) = hd None g /\
  (mg g = g /\ oapp merge_on (value (hd None g)) && prefixed (hd None g) = false \/ exists t r v, g = t :: r /\ prefixed t = true /\ merge_on v = true /\ value t = Some v /\
     mg g = t :: repeat (inside t) (length r)).
Proof.
  intros (H1 & H2 & H3). destruct g as [|t r]; [congruence|]. unfold merge_same. cbn [hd].
  change (strip_tag_prefix t) with (value t).
  assert (Hid : good (t :: r)) by (split; [discriminate|split; assumption]).
  destruct (enabled merge_map default_merge (value t)) eqn:Em.
  2: { repeat (split; [auto; fail|]). left. split; [reflexivity|]. destruct (value t) as [w|]; [|reflexivity].
       cbn [oapp]. unfold merge_on. now rewrite Em. }
  unfold merged_tags. destruct (split_tag_prefix t) as [p v] eqn:Es.
  destruct (truthy p) eqn:Ep; cbn [negb].
  2: { repeat (split; [auto; fail|]). left. split; [reflexivity|]. unfold prefixed. rewrite Es. cbn [fst]. rewrite Ep.
       apply andb_false_r. }
  inversion H2 as [|? ? Ht Hr]; subst.
  assert (Hp : prefixed t = true) by (unfold prefixed; now rewrite Es).
  destruct (plain_cases t Ht) as [->|Hc]; [discriminate|].
  assert (Hi : exists w, value t = Some w /\ add_tag_prefix v (Some I_PREFIX) = inside t).
  { destruct Hc as [(c & w & ->)|[(c & w & ->)|(c & w & -> & E)]].
    - injection Es as <- <-. eexists. split; reflexivity.
    - injection Es as <- <-. eexists. split; reflexivity.
    - rewrite E in Es. injection Es as <- <-. discriminate. }
  destruct Hi as (w & Hw & ->).
  split; [|split; [cbn; now rewrite repeat_length|split; [reflexivity|]]].
  - split; [discriminate|]. split.
    + constructor; [exact Ht|]. apply Forall_forall. intros x Hx. apply repeat_spec in Hx. subst x. now apply inside_plain.
    + cbn [hd]. constructor; [reflexivity|]. apply Forall_forall. intros x Hx. apply repeat_spec in Hx. subst x. now apply inside_value.
  - right. exists t, r, w. repeat split; auto. unfold merge_on. rewrite <- Hw. exact Em.
Qed.

Lemma good_last_value g : good g -> value (last g None) = value (hd None g).
Proof.
  intros (H1 & _ & H3). rewrite Forall_forall in H3. apply H3.
  destruct g as [|x g _] using rev_ind; [congruence|]. rewrite last_last. apply in_or_app. right. now left.
Qed.
Lemma good_last_plain g : good g -> plain (last g None).
Proof.
  intros (H1 & H2 & _). rewrite Forall_forall in H2. apply H2.
  destruct g as [|x g _] using rev_ind; [congruence|]. rewrite last_last. apply in_or_app. right. now left.
Qed.

Lemma groups_good l : Forall plain l -> Forall good (group_by same_value l).
Proof.
  induction l as [|x l IH]; intros H; [constructor|]. inversion H as [|? ? Hx Hl]; subst. specialize (IH Hl).
  cbn [group_by]. assert (H1 : good [x]) by (split; [discriminate|split; [constructor; [exact Hx|constructor]|constructor; [reflexivity|constructor]]]).
  destruct (group_by same_value l) as [|[|y g] gs] eqn:E.
  - constructor; [exact H1|constructor].
  - inversion IH as [|? ? [Hc _] _]; congruence.
  - inversion IH as [|? ? (G1 & G2 & G3) G]; subst. destruct (same_value x y) eqn:Ev.
    + constructor; [|exact G]. apply same_value_true in Ev. split; [discriminate|]. split; [constructor; assumption|].
      cbn [hd] in *. constructor; [reflexivity|]. eapply Forall_impl; [|exact G3]. cbn. congruence.
    + constructor; [exact H1|]. constructor; [split; [discriminate|split; assumption]|exact G].
Qed.
Lemma mgs_good l : Forall plain l -> Forall good (map mg (group_by same_value l)).
Proof.
  intros H. apply groups_good in H. induction H as [|g gs Hg H IH]; cbn; constructor; auto. now apply mg_facts.
Qed.
Lemma mgs_length l : Forall plain l -> length (concat (map mg (group_by same_value l))) = length l.
Proof.
  intros H. apply groups_good in H. rewrite <- (group_by_concat same_value l) at 2.
  induction H as [|g gs Hg H IH]; [reflexivity|]. cbn. rewrite !app_length, IH. f_equal. now apply mg_facts.
Qed.

(** the last group before the run *)
Lemma lst_spec pre : Forall plain pre ->
  match lst None (map mg (group_by same_value pre)) with
  | None => pre = []
  | Some g => pre <> [] /\ good g /\ length g = run_before pre /\ value (last g None) = value (last pre None) /\
      to_inside_tag (last g None) = cont merge_on pre
  end /\
  (pre <> [] -> exists rest run, pre = rest ++ run /\ length run = run_before pre /\ run = last_run pre /\
     lst None (map mg (group_by same_value pre)) = Some (mg run) /\ good run /\
     Forall (fun t => value t = value (last pre None)) run /\ differ rest run /\
     lst2 None None (map mg (group_by same_value pre)) = lst None (map mg (group_by same_value rest))).
Proof.
  intros Hp. destruct (list_eq_dec ostr_eq_dec pre []) as [->|Hne].
  - split; [reflexivity|congruence].
  - destruct (last_run_split pre Hne) as (rest & run & E1 & E2 & E3 & E4 & E5 & E6 & E7).
    assert (Hplain : Forall plain run) by (rewrite E1 in Hp; now apply Forall_app in Hp).
    assert (Hgood : good run).
    { split; [exact E4|]. split; [exact Hplain|]. rewrite (Forall_hd_eq run _ E4 E6). exact E6. }
    assert (Eg : group_by same_value pre = group_by same_value rest ++ [run]).
    { rewrite E1 at 1. rewrite group_by_app by exact E7. f_equal. eapply group_by_uniform; eassumption. }
    assert (El : lst None (map mg (group_by same_value pre)) = Some (mg run)).
    { unfold lst. rewrite Eg, map_app, rev_app_distr. reflexivity. }
    assert (El2 : lst2 None None (map mg (group_by same_value pre)) = lst None (map mg (group_by same_value rest))).
    { unfold lst, lst2. rewrite Eg, map_app, rev_app_distr. cbn [map rev app]. destruct (rev (map mg (group_by same_value rest))); reflexivity. }
    split; [|intros _; exists rest, run; auto 9].
    rewrite El. destruct (mg_facts run Hgood) as (G1 & G2 & G3 & G4).
    split; [exact Hne|]. split; [exact G1|]. split; [congruence|].
    assert (Hv : value (hd None run) = value (last pre None)) by (apply Forall_hd_eq; assumption).
    split; [rewrite (good_last_value _ G1), G3; exact Hv|].
    rewrite to_inside_inside by (now apply good_last_plain). unfold cont. rewrite <- E3.
    destruct G4 as [[G4 G5]|(t & r & v & -> & P1 & P2 & P3 & P4)].
    + rewrite G4, G5. reflexivity.
    + rewrite P4. cbn [hd]. rewrite P1, P3. cbn [oapp]. rewrite P2. cbn [andb].
      destruct r as [|y r]; [reflexivity|]. cbn [length repeat].
      assert (Hl : forall n, last (t :: inside t :: repeat (inside t) n) None = inside t).
      { induction n as [|n IHn]; [reflexivity|]. exact IHn. }
      rewrite Hl. apply inside_inside. now inversion Hplain.
Qed.

Lemma next_spec post : Forall plain post ->
  match hd_error (map mg (group_by same_value post)) with
  | None => post = []
  | Some g => post <> [] /\ good g /\ length g = run_after post /\ hd None g = hd None post
  end.
Proof.
  intros Hp. destruct (list_eq_dec ostr_eq_dec post []) as [->|Hne]; [reflexivity|].
  destruct (run_after_split post Hne) as (run & rest & E1 & E2 & E3 & E4 & E5 & E6).
  assert (Hgood : good run).
  { split; [exact E3|]. split; [rewrite E1 in Hp; now apply Forall_app in Hp|]. rewrite E4. exact E5. }
  assert (Eg : group_by same_value post = run :: group_by same_value rest).
  { rewrite E1 at 1. rewrite group_by_app.
    - rewrite (group_by_uniform run _ E3 E5). reflexivity.
    - unfold differ. destruct (rev run) as [|x k] eqn:Er; [exact I|]. destruct rest as [|t rest]; [exact I|].
      rewrite Forall_forall in E5. rewrite (E5 x); [congruence|]. rewrite in_rev, Er. now left. }
  rewrite Eg. cbn [map hd_error]. destruct (mg_facts run Hgood) as (G1 & G2 & G3 & _).
  split; [exact Hne|]. split; [exact G1|]. split; congruence.
Qed.
Lemma rev_last (l : list ostr) : l <> [] -> exists x k, rev l = x :: k /\ last l None = x.
Proof.
  intros H. destruct l as [|x l _] using rev_ind; [congruence|]. rewrite rev_app_distr, last_last. eexists _, _. split; reflexivity.
Qed.
Lemma enabled_oapp m d v : v <> None -> enabled m d v = oapp (fun k => enabled m d (Some k)) v.
Proof. destruct v; [reflexivity|congruence]. Qed.

Definition is_begin (t : ostr) : bool := ostreq (fst (split_tag_prefix t)) (Some B_PREFIX).
Lemma ext_gap pre g post : good g -> truthy (hd None g) = false ->
  Forall plain pre -> Forall plain post -> differ pre g -> (post <> [] -> value (hd None post) <> value (hd None g)) ->
  ext_group (lst None (map mg (group_by same_value pre))) g (hd_error (map mg (group_by same_value post))) =
  (gap_result ext_on merge_on pre (length g) post,
   match fill ext_on merge_on pre (length g) post with Some _ => is_begin (hd None post) | None => false end).
Proof.
  intros Hg Ht Hpre Hpost Hd Hd2. destruct (lst_spec pre Hpre) as [L _]. pose proof (next_spec post Hpost) as N.
  destruct Hg as (G1 & G2 & G3). destruct g as [|t g]; [congruence|]. cbn [hd] in *.
  inversion G2 as [|? ? Htp Hgp]; subst.
  assert (t = None).
  { destruct Htp as [->|Htp]; [reflexivity|]. rewrite plain_truthy in Ht by now right. congruence. }
  subst t.
  assert (Hall : @cons ostr None g = repeat None (S (length g))).
  { cbn [repeat]. f_equal. clear -Hgp G3. inversion G3 as [|? ? _ G]; subst. clear G3.
    induction g as [|y g IH]; [reflexivity|]. inversion Hgp; inversion G; subst. cbn [length repeat].
    rewrite <- IH by assumption. f_equal. apply plain_value_none; assumption. }
  set (n := length (@cons ostr None g)). assert (Hn : n <> 0) by discriminate.
  change (@cons ostr None g = repeat None n) in Hall.
  unfold extend_group, gap_result, fill. cbn [hd]. fold n.
  destruct (lst None (map mg (group_by same_value pre))) as [p|].
  - destruct L as (L1 & L2 & L3 & L4 & L5). destruct (rev_last pre L1) as (x & k & Er & El).
    unfold differ in Hd. rewrite Er in Hd. rewrite El in L4. rewrite Er.
    change (snd (split_tag_prefix (last p None))) with (value (last p None)). rewrite L4.
    cbn [truthy]. destruct (hd_error (map mg (group_by same_value post))) as [q|].
    + destruct N as (N1 & N2 & N3 & N4). destruct post as [|r post]; [congruence|]. cbn [hd] in N4. rewrite N4.
      destruct (split_tag_prefix r) as [np nv] eqn:Es.
      change nv with (snd (np, nv)). rewrite <- Es. change (snd (split_tag_prefix r)) with (value r).
      rewrite (enabled_oapp merge_map default_merge (value x)) by exact Hd. fold merge_on.
      change (fun k0 : str => enabled merge_map default_merge (Some k0)) with merge_on.
      destruct (ostreq (value x) (value r) && oapp merge_on (value x)).
      * rewrite L5. f_equal. unfold is_begin. cbn [hd]. now rewrite Es.
      * exact (f_equal (fun z => (z, false)) Hall).
    + subst post. cbn [hd split_tag_prefix].
      rewrite (enabled_oapp extend_map default_extend (value x)) by exact Hd.
      change (fun k0 : str => enabled extend_map default_extend (Some k0)) with ext_on.
      rewrite L3, L5. destruct (oapp ext_on (value x)); cbn [negb andb]; [|exact (f_equal (fun z => (z, false)) Hall)].
      destruct (Nat.ltb n (run_before pre)); [reflexivity|exact (f_equal (fun z => (z, false)) Hall)].
  - subst pre. cbn [rev].
    destruct (hd_error (map mg (group_by same_value post))) as [q|].
    + destruct N as (N1 & N2 & N3 & N4). destruct post as [|r post]; [congruence|]. cbn [hd] in N4. rewrite N4.
      cbn [split_tag_prefix snd]. destruct (split_tag_prefix r) as [np nv] eqn:Es.
      change nv with (snd (np, nv)). rewrite <- Es. change (snd (split_tag_prefix r)) with (value r).
      specialize (Hd2 N1). cbn [hd] in Hd2.
      rewrite (enabled_oapp extend_map default_extend (value r)) by exact Hd2.
      change (fun k0 : str => enabled extend_map default_extend (Some k0)) with ext_on.
      rewrite N3. cbn [truthy]. destruct (oapp ext_on (value r)); cbn [negb andb]; [|exact (f_equal (fun z => (z, false)) Hall)].
      destruct (Nat.ltb n (run_after (r :: post))); [|exact (f_equal (fun z => (z, false)) Hall)].
      rewrite begin_inside_eq; [|now inversion Hpost|intros ->; now apply Hd2|exact Hn].
      f_equal. unfold is_begin. cbn [hd]. now rewrite Es.
    + subst post. cbn. exact (f_equal (fun z => (z, false)) Hall).
Qed.

Lemma ext_tagged p g n : truthy (hd None g) = true -> ext_group p g n = (g, false).
Proof. intros H. unfold extend_group. destruct (split_tag_prefix _). now rewrite H. Qed.

Lemma maximal_good pre run post : Forall plain (pre ++ run ++ post) -> maximal pre run post ->
  Forall plain pre /\ Forall plain run /\ Forall plain post /\ good run /\ differ pre run /\ differ run post /\
  group_by same_value (pre ++ run ++ post) = group_by same_value pre ++ run :: group_by same_value post.
Proof.
  intros Hp (M1 & M2 & M3 & M4). apply Forall_app in Hp as [P1 Hp]. apply Forall_app in Hp as [P2 P3].
  assert (D1 : differ pre run).
  { unfold differ. destruct (rev pre); [exact I|]. destruct run; [congruence|]. exact M3. }
  assert (D2 : differ run post).
  { unfold differ. destruct (rev run) as [|x k] eqn:Er; [exact I|]. destruct post as [|t post]; [exact I|].
    rewrite Forall_forall in M2. rewrite (M2 x); [congruence|]. rewrite in_rev, Er. now left. }
  repeat (split; [assumption|]). split; [split; [assumption|split; assumption]|]. split; [exact D1|]. split; [exact D2|].
  rewrite group_by_app.
  - f_equal. rewrite group_by_app by exact D2. rewrite (group_by_uniform run _ M1 M2). reflexivity.
  - unfold differ in *. destruct (rev pre); [exact I|]. destruct run; [congruence|]. exact D1.
Qed.

Lemma gap_len_eq rest run : good run -> truthy (hd None run) = false -> Forall plain rest -> differ rest run ->
  gap_len (rest ++ run) = length run.
Proof.
  intros (G1 & G2 & G3) Ht Hp Hd. unfold gap_len. rewrite rev_app_distr.
  assert (Hall : Forall (fun t => truthy t = false) run).
  { apply Forall_forall. intros t Hin. rewrite Forall_forall in G2, G3.
    rewrite plain_truthy by auto. rewrite (G3 t Hin). rewrite <- plain_truthy; [exact Ht|].
    apply G2. destruct run; [congruence|now left]. }
  assert (Hnone : hd None run = None).
  { assert (Hh : plain (hd None run)) by (destruct run; [now left|now inversion G2]).
    destruct Hh as [Hh|Hh]; [exact Hh|]. rewrite plain_truthy in Ht by now right. congruence. }
  rewrite <- (rev_length run). apply Forall_rev in Hall.
  assert (Hr : match rev rest with [] => True | t :: _ => truthy t = true end).
  { unfold differ in Hd. destruct (rev rest) as [|t k] eqn:Er; [exact I|]. destruct run as [|y run]; [congruence|].
    cbn [hd] in Hnone. subst y.
    assert (Hpt : plain t) by (rewrite Forall_forall in Hp; apply Hp; rewrite in_rev, Er; now left).
    destruct Hpt as [->|Hpt]; [now elim Hd|]. rewrite plain_truthy; [exact Hpt|now right]. }
  induction Hall as [|t l Hl Hall IH].
  - cbn. destruct (rev rest); [reflexivity|]. cbn. now rewrite Hr.
  - cbn [app prefix_len length]. rewrite Hl. cbn [negb]. now rewrite IH.
Qed.

Theorem main pre run post : Forall plain (pre ++ run ++ post) -> maximal pre run post ->
  exists r1 r2, extended_line_tags extend_map merge_map default_extend default_merge (pre ++ run ++ post) =
    r1 ++ (if truthy (hd None run) then run_result ext_on merge_on pre run post
           else gap_result ext_on merge_on pre (length run) post) ++ r2 /\
    length r1 = length pre /\ length r2 = length post.
Proof.
  intros Hp Hm. destruct (maximal_good _ _ _ Hp Hm) as (P1 & P2 & P3 & Gr & D1 & D2 & Eg).
  unfold extended_line_tags.
  assert (Hgood : Forall good (map mg (group_by same_value (pre ++ run ++ post)))) by now apply mgs_good.
  pose proof (ext_go_out (map mg (group_by same_value (pre ++ run ++ post))) None None None Hgood I) as E.
  assert (E0 : match map mg (group_by same_value (pre ++ run ++ post)) with g :: _ => chg None None g | [] => false end = false)
    by (destruct (map mg _); reflexivity).
  rewrite E0 in E. rewrite E. rewrite Eg, map_app in *. cbn [map] in *.
  destruct (out_go_at (map mg (group_by same_value post)) (mg run) (map mg (group_by same_value pre)) None None Hgood)
    as (o1 & o2 & F1 & F2 & F3).
  rewrite F1, concat_app. cbn [concat]. exists (concat o1), (concat o2).
  rewrite mgs_length in F2, F3 by assumption. split; [|auto]. f_equal. f_equal.
  destruct (mg_facts run Gr) as (MG & Ml & Mh & Mc).
  set (c := chg (lst2 None None (map mg (group_by same_value pre))) (lst None (map mg (group_by same_value pre))) (mg run)).
  destruct (truthy (hd None run)) eqn:Et.
  - rewrite ext_tagged by (destruct c; [rewrite truthy_inside_first by exact MG|]; rewrite Mh; exact Et).
    cbn [fst].
    destruct Gr as (G1 & G2 & G3). destruct run as [|t rest]; [congruence|]. cbn [hd] in *. unfold run_result.
    inversion P2 as [|? ? Pt Pr]; subst.
    assert (Emg : mg (t :: rest) = t :: if oapp merge_on (value t) && prefixed t then repeat (inside t) (length rest) else rest).
    { destruct Mc as [[-> ->]|(t' & r & v & E1 & E2 & E3 & E4 & ->)]; [reflexivity|]. injection E1 as <- <-.
      rewrite E2, E4. cbn [oapp]. now rewrite E3. }
    assert (Hc : (if c then inside t else t) = if filled_before ext_on merge_on pre (t :: rest) post then inside t else t).
    { destruct (lst_spec pre P1) as [L1 L2]. destruct (list_eq_dec ostr_eq_dec pre []) as [->|Hne]; [reflexivity|].
      destruct (L2 Hne) as (rs & rn & R1 & R2 & R3 & R4 & R5 & R6 & R7 & R8).
      unfold c. rewrite R4, R8.
      assert (Prs : Forall plain rs) by (rewrite R1 in P1; now apply Forall_app in P1).
      destruct (mg_facts rn R5) as (MG' & Ml' & Mh' & Mc').
      destruct (truthy (hd None rn)) eqn:Ern.
      - rewrite chg_tagged by (rewrite Mh'; exact Ern). unfold filled_before.
        assert (Hz : gap_len pre = 0).
        { unfold gap_len. rewrite R1, rev_app_distr. destruct R5 as (R51 & R52 & R53).
          destruct (rev rn) as [|y k] eqn:Ery; [destruct rn; [congruence|apply (f_equal (@length _)) in Ery; rewrite rev_length in Ery; discriminate]|].
          assert (Hy : In y rn) by (rewrite in_rev, Ery; now left). cbn [app prefix_len].
          rewrite Forall_forall in R52, R53. rewrite plain_truthy by auto. rewrite (R53 y Hy), <- plain_truthy.
          - now rewrite Ern. - apply R52. destruct rn; [contradiction|now left]. }
        now rewrite Hz.
      - assert (Emr : mg rn = rn).
        { destruct Mc' as [[H _]|(t' & r & v & -> & E2 & E3 & E4 & _)]; [exact H|]. cbn [hd] in Ern.
          destruct R5 as (_ & R52 & _). inversion R52; subst. rewrite plain_truthy in Ern by assumption.
          match goal with H : plain t' |- _ => destruct H as [->|H]; [discriminate|congruence] end. }
        rewrite Emr. unfold chg.
        assert (Hnx : Some (mg (t :: rest)) = hd_error (map mg (group_by same_value ((t :: rest) ++ post)))).
        { rewrite group_by_app by exact D2. rewrite (group_by_uniform (t :: rest) (value t)); [reflexivity|discriminate|exact G3]. }
        rewrite Hnx. rewrite ext_gap; [|exact R5|exact Ern|exact Prs|now apply Forall_app|exact R7|].
        + cbn [snd]. unfold filled_before.
          assert (Hg : gap_len pre = length rn) by (rewrite R1; apply gap_len_eq; assumption).
          rewrite Hg. assert (Hfn : firstn (length pre - length rn) pre = rs).
          { rewrite R1, app_length, Nat.add_sub. rewrite firstn_app, Nat.sub_diag, firstn_all. cbn. apply app_nil_r. }
          rewrite Hfn. replace (Nat.eqb (length rn) 0) with false by (destruct R5 as [R5 _]; destruct rn; [congruence|reflexivity]).
          cbn [negb andb app hd].
          destruct (fill ext_on merge_on rs (length rn) (t :: rest ++ post)); [|reflexivity].
          unfold is_begin.
          destruct (plain_cases t Pt) as [->|[(a & v & ->)|[(a & v & ->)|(a & v & -> & Es)]]]; try reflexivity.
          unfold inside, prefixed, value. rewrite Es. cbn. reflexivity.
        + intros _. cbn [app hd].
          assert (Hl : value (last pre None) = value (hd None rn)).
          { symmetry. apply Forall_hd_eq; [apply R5|exact R6]. }
          destruct (rev_last pre Hne) as (y & k & Er & El). destruct Hm as (_ & _ & M3 & _). rewrite Er in M3. cbn [hd] in M3.
          rewrite <- Hl, El. congruence. }
    rewrite Emg. rewrite <- Hc. destruct c; cbn [inside_first]; [|reflexivity]. now rewrite to_inside_inside.
  - assert (Emr : mg run = run).
    { destruct Mc as [[H _]|(t' & r & v & E1 & E2 & E3 & E4 & _)]; [exact H|]. subst run. cbn [hd] in Et.
      inversion P2; subst. rewrite plain_truthy in Et by assumption.
      match goal with H : plain t' |- _ => destruct H as [->|H]; [discriminate|congruence] end. }
    assert (Hc : c = false).
    { unfold c. destruct (lst_spec pre P1) as [L1 L2]. destruct (list_eq_dec ostr_eq_dec pre []) as [->|Hne]; [reflexivity|].
      destruct (L2 Hne) as (rs & rn & R1 & R2 & R3 & R4 & R5 & R6 & R7 & R8). rewrite R4.
      apply chg_tagged. destruct (mg_facts rn R5) as (_ & _ & -> & _).
      destruct (rev_last pre Hne) as (y & k & Er & El). destruct Hm as (_ & _ & M3 & _). rewrite Er in M3.
      assert (Hh : plain (hd None rn)) by (destruct R5 as (? & R52 & _); destruct rn; [now left|now inversion R52]).
      assert (Hv : value (hd None rn) = value y) by (rewrite <- El; apply Forall_hd_eq; [apply R5|exact R6]).
      destruct Hh as [Hh|Hh]; [|rewrite plain_truthy; [exact Hh|now right]].
      exfalso. apply M3. rewrite <- Hv, Hh.
      assert (Hr : plain (hd None run)) by (destruct run; [now left|now inversion P2]).
      destruct Hr as [->|Hr]; [reflexivity|]. rewrite plain_truthy in Et by now right. congruence. }
    rewrite Hc, Emr. rewrite ext_gap; [reflexivity|exact Gr|exact Et|exact P1|exact P3|exact D1|].
    intros Hne. destruct post as [|y post]; [congruence|]. cbn [hd]. apply Hm.
Qed.
End Proof.

(* ---------------------------------------------------------------- *)
(** every position lies in a maximal run *)
Lemma in_run (l : list ostr) i : i < length l -> exists pre run post,
  l = pre ++ run ++ post /\ maximal pre run post /\ length pre <= i < length pre + length run.
Proof.
  intros Hi. destruct (nth_error l i) as [x|] eqn:Ex; [|apply nth_error_None in Ex; lia].
  apply nth_error_split in Ex as (l1 & l2 & -> & Hl).
  assert (Hne : l1 ++ [x] <> []) by (destruct l1; discriminate).
  destruct (last_run_split (l1 ++ [x]) Hne) as (pre & run & E1 & _ & _ & E4 & E5 & E6 & E7).
  rewrite last_last in E5, E6.
  destruct (prefix_split (same_value x) l2) as [H1 H2].
  set (r2 := firstn (prefix_len (same_value x) l2) l2) in *. set (post := skipn (prefix_len (same_value x) l2) l2) in *.
  assert (Hlen : length l1 + 1 = length pre + length run).
  { rewrite <- app_length, <- E1, app_length. reflexivity. }
  assert (Hrl : 0 < length run) by (destruct run; [congruence|cbn; lia]).
  assert (Hh : value (hd None (run ++ r2)) = value x).
  { destruct run as [|y run]; [congruence|]. cbn. now inversion E6. }
  exists pre, (run ++ r2), post. split; [|split; [|rewrite app_length; lia]].
  - rewrite <- app_assoc. unfold r2, post. rewrite firstn_skipn, app_assoc, <- E1, <- app_assoc. reflexivity.
  - unfold maximal. rewrite Hh. split; [destruct run; [congruence|discriminate]|]. split; [|split].
    + apply Forall_app. split; [exact E6|]. eapply Forall_impl; [|exact H1]. cbn. intros a Ha. symmetry. now apply same_value_true.
    + unfold differ in E7. destruct (rev pre); [exact I|]. destruct run as [|y run]; [congruence|]. inversion E6; subst.
      congruence.
    + destruct post; [exact I|]. apply same_value_false in H2. congruence.
Qed.

Section Theorems.
Variables extend_map merge_map : list (str * bool).
Variables default_extend default_merge : bool.
Notation output := (extended_line_tags extend_map merge_map default_extend default_merge).
Notation ext_ok := (fun v => enabled extend_map default_extend (Some v)).
Notation merge_ok := (fun v => enabled merge_map default_merge (Some v)).

(** The tags of every maximal group of equal values, whatever is around it. *)
Theorem C16_runs pre run post : Forall plain (pre ++ run ++ post) -> maximal pre run post ->
  exists r1 r2, output (pre ++ run ++ post) =
    r1 ++ (if truthy (hd None run) then run_result ext_ok merge_ok pre run post
           else gap_result ext_ok merge_ok pre (length run) post) ++ r2 /\
    length r1 = length pre /\ length r2 = length post.
Proof. apply main. Qed.

(** The number of tags never changes (any tags). *)
Theorem C16_length l : length (output l) = length l.
Proof.
  unfold extended_line_tags.
  assert (Hm : forall gs, length (concat (map (merge_same merge_map default_merge) gs)) = length (concat gs)).
  { induction gs as [|g gs IH]; [reflexivity|]. cbn [map concat]. rewrite !app_length, IH. f_equal.
    unfold merge_same. destruct (enabled _ _ _); [|reflexivity]. destruct g as [|t g]; [reflexivity|]. cbn [merged_tags].
    destruct (split_tag_prefix t) as [p v]. destruct (truthy p); cbn [negb]; [|reflexivity]. cbn [length]. now rewrite repeat_length. }
  assert (He : forall gs p c, length (concat (extend_go extend_map merge_map default_extend default_merge p c gs)) = length (concat gs)).
  { induction gs as [|g gs IH]; intros p c; [reflexivity|]. cbn [extend_go].
    destruct (extend_group _ _ _ _ p (if c then inside_first g else g) (hd_error gs)) as [r c'] eqn:E. cbn [concat].
    rewrite !app_length, IH. f_equal.
    assert (El : length (if c then inside_first g else g) = length g) by (destruct c; [destruct g; reflexivity|reflexivity]).
    rewrite <- El. revert E. generalize (if c then inside_first g else g). intros g'. unfold extend_group.
    destruct (split_tag_prefix _) as [np nv].
    assert (B : forall t k, length (to_begin_inside_tags t k) = k).
    { intros t [|k]; [reflexivity|]. cbn [to_begin_inside_tags]. destruct (split_tag_prefix t) as [q v].
      destruct (negb (truthy q)); [apply repeat_length|]. cbn. now rewrite repeat_length. }
    destruct (truthy (hd None g')); [congruence|].
    destruct p, (hd_error gs); repeat (match goal with |- context [if ?x then _ else _] => destruct x end);
      intros [= <- _]; rewrite ?repeat_length, ?B; reflexivity. }
  rewrite He, Hm, group_by_concat. reflexivity.
Qed.

Lemma nth_mid {A} (r1 m r2 : list A) i : length r1 <= i < length r1 + length m ->
  nth_error (r1 ++ m ++ r2) i = nth_error m (i - length r1).
Proof.
  intros H. rewrite nth_error_app2 by lia. rewrite nth_error_app1 by lia. reflexivity.
Qed.
Lemma fill_length e m pre n post ts : n <> 0 -> fill e m pre n post = Some ts -> length ts = n.
Proof.
  intros Hn. unfold fill. destruct (rev pre) as [|x k], post as [|r post]; try discriminate;
    match goal with |- context [if ?x then _ else _] => destruct x end; try discriminate; intros [= <-];
    cbn [length]; rewrite repeat_length; lia.
Qed.

(** A tagged token keeps its tag value. *)
Theorem C16_value l i t : Forall plain l -> nth_error l i = Some t -> truthy t = true ->
  exists t', nth_error (output l) i = Some t' /\ value t' = value t.
Proof.
  intros Hp Hi Ht. assert (Hlt : i < length l) by (apply nth_error_Some; congruence).
  destruct (in_run l i Hlt) as (pre & run & post & -> & Hm & Hr).
  destruct (C16_runs pre run post Hp Hm) as (r1 & r2 & E & L1 & L2). rewrite E.
  rewrite nth_mid in Hi by exact Hr.
  destruct Hm as (M1 & M2 & M3 & M4). apply Forall_app in Hp as [P1 Hp]. apply Forall_app in Hp as [P2 P3].
  assert (Hin : In t run) by (eapply nth_error_In; eassumption).
  assert (Hv : value t = value (hd None run)) by (rewrite Forall_forall in M2; auto).
  assert (Hth : truthy (hd None run) = true).
  { rewrite plain_truthy, <- Hv, <- plain_truthy; [exact Ht|rewrite Forall_forall in P2; auto|].
    destruct run; [congruence|now inversion P2]. }
  rewrite Hth. set (res := run_result _ _ pre run post).
  assert (Hlen : length res = length run).
  { unfold res, run_result. destruct run as [|y run]; [reflexivity|]. cbn [length].
    destruct (_ && _); [now rewrite repeat_length|reflexivity]. }
  rewrite nth_mid by lia. rewrite L1.
  destruct (nth_error res (i - length pre)) as [t'|] eqn:Et.
  2: { apply nth_error_None in Et. assert (i - length pre < length run) by lia. lia. }
  exists t'. split; [reflexivity|]. rewrite Hv.
  apply nth_error_In in Et. unfold res, run_result in Et. destruct run as [|y run]; [congruence|]. cbn [hd] in *.
  inversion P2 as [|? ? Py Pr]; subst. inversion M2 as [|? ? _ Mr]; subst. destruct Et as [<-|Et].
  - destruct (filled_before _ _ pre (y :: run) post); [now apply inside_value|reflexivity].
  - destruct (_ && _); [apply repeat_spec in Et; subst t'; now apply inside_value|].
    rewrite Forall_forall in Mr. now apply Mr.
Qed.

(** A gap is only filled with the value of the nearest tagged token on one side,
    for which merging or extending is enabled. *)
Theorem C16_gap l i t' : Forall plain l -> nth_error l i = Some None ->
  nth_error (output l) i = Some t' -> t' <> None ->
  exists j t v, nth_error l j = Some t /\ truthy t = true /\ value t = Some v /\ value t' = Some v /\
    (ext_ok v = true \/ merge_ok v = true) /\
    forall k, Nat.min i j < k < Nat.max i j -> nth_error l k = Some None.
Proof.
  intros Hp Hi Ho Ht'. assert (Hlt : i < length l) by (apply nth_error_Some; congruence).
  destruct (in_run l i Hlt) as (pre & run & post & -> & Hm & Hr).
  destruct (C16_runs pre run post Hp Hm) as (r1 & r2 & E & L1 & L2). rewrite E in Ho.
  rewrite nth_mid in Hi by exact Hr.
  destruct Hm as (M1 & M2 & M3 & M4). apply Forall_app in Hp as [P1 Hp]. apply Forall_app in Hp as [P2 P3].
  assert (Hin : In None run) by (eapply nth_error_In; eassumption).
  assert (Hv : value (hd None run) = None) by (rewrite Forall_forall in M2; symmetry; exact (M2 None Hin)).
  assert (Hth : hd None run = None).
  { apply plain_value_none; [|exact Hv]. destruct run; [now left|now inversion P2]. }
  assert (Hnone : forall t, In t run -> t = None).
  { intros t Hin'. rewrite Forall_forall in M2, P2. apply plain_value_none; [auto|]. rewrite M2 by exact Hin'. exact Hv. }
  rewrite Hth in Ho. cbn [truthy] in Ho.
  assert (Hn : length run <> 0) by (destruct run; [congruence|discriminate]).
  set (gr := gap_result _ _ pre (length run) post) in *.
  assert (Hlen : length gr = length run).
  { unfold gr, gap_result. destruct (fill _ _ pre (length run) post) as [ts|] eqn:Ef; [|apply repeat_length].
    eapply fill_length; [|exact Ef]. exact Hn. }
  rewrite nth_mid in Ho by lia. apply nth_error_In in Ho. unfold gr, gap_result in Ho.
  destruct (fill _ _ pre (length run) post) as [ts|] eqn:Ef; [|apply repeat_spec in Ho; congruence].
  rewrite Hv in M3, M4.
  assert (Hbetween : forall k, length pre <= k < length pre + length run -> nth_error (pre ++ run ++ post) k = Some None).
  { intros k Hk. rewrite nth_mid by exact Hk. destruct (nth_error run (k - length pre)) as [t|] eqn:Ek.
    - f_equal. apply Hnone. eapply nth_error_In; eassumption.
    - apply nth_error_None in Ek. lia. }
  (* the neighbour before *)
  assert (Hpre : forall x k v, rev pre = x :: k -> value x = Some v -> value t' = Some v ->
            (enabled extend_map default_extend (Some v) = true \/ enabled merge_map default_merge (Some v) = true) ->
            exists j t v, nth_error (pre ++ run ++ post) j = Some t /\ truthy t = true /\ value t = Some v /\ value t' = Some v /\
            (ext_ok v = true \/ merge_ok v = true) /\
            forall k, Nat.min i j < k < Nat.max i j -> nth_error (pre ++ run ++ post) k = Some None).
  { intros x k v Er Ev Ev' He. exists (length pre - 1), x, v.
    assert (Ep : pre = rev k ++ [x]) by (rewrite <- (rev_involutive pre), Er; reflexivity).
    assert (Hl : length pre = length k + 1) by (rewrite Ep, app_length, rev_length; reflexivity).
    assert (Px : plain x) by (rewrite Forall_forall in P1; apply P1; rewrite Ep; apply in_or_app; right; now left).
    split.
    { rewrite nth_error_app1 by lia. rewrite Ep, nth_error_app2; rewrite app_length, rev_length; cbn [length]; [|lia].
      replace (length k + 1 - 1 - length k) with 0 by lia. reflexivity. }
    split; [destruct Px as [->|Px]; [discriminate|]; rewrite plain_truthy; [exact Px|now right]|].
    repeat (split; [assumption|]). intros q Hq. apply Hbetween. lia. }
  assert (Hcont : forall x k, rev pre = x :: k -> value (cont (merge_on merge_map default_merge) pre) = value x).
  { intros x k Er. unfold cont.
    assert (Hne : pre <> []) by (intros ->; discriminate).
    destruct (last_run_split pre Hne) as (rest & lrun & E1 & E2 & E3 & E4 & E5 & E6 & E7). rewrite <- E3.
    destruct (rev_last pre Hne) as (x' & k' & Er' & El). rewrite Er in Er'. injection Er' as <- <-. rewrite El in *.
    assert (Pl : Forall plain lrun) by (rewrite E1 in P1; now apply Forall_app in P1).
    destruct (_ && _).
    - rewrite inside_value by (destruct lrun; [now left|now inversion Pl]). now apply Forall_hd_eq.
    - rewrite E5. apply inside_value. rewrite Forall_forall in Pl. apply Pl. rewrite <- E5.
      destruct lrun as [|y lr _] using rev_ind; [congruence|]. rewrite last_last. apply in_or_app. right. now left. }
  unfold fill in Ef. destruct (rev pre) as [|x k] eqn:Er.
  - destruct post as [|r post]; [discriminate|]. assert (Pr : plain r) by now inversion P3.
    destruct (value r) as [v|] eqn:Evr; [|congruence]. cbn [oapp] in Ef.
    destruct (enabled extend_map default_extend (Some v)) eqn:Ee; [|discriminate].
    destruct (Nat.ltb _ _); [|discriminate]. cbn [andb] in Ef. injection Ef as <-.
    exists (length pre + length run), r, v.
    split; [rewrite nth_error_app2 by lia; rewrite nth_error_app2 by lia;
            replace (length pre + length run - length pre - length run) with 0 by lia; reflexivity|].
    split; [destruct Pr as [->|Pr]; [discriminate|]; rewrite plain_truthy; [exact Pr|now right]|].
    split; [exact Evr|]. split; [|split; [now left|intros q Hq; apply Hbetween; lia]].
    destruct Ho as [<-|Ho].
    + destruct (plain_cases r Pr) as [->|[(a & w & ->)|[(a & w & ->)|(a & w & -> & Es)]]]; try exact Evr.
      unfold beginning, prefixed. rewrite Evr, Es. exact Evr.
    + apply repeat_spec in Ho. subst t'. now rewrite inside_value.
  - specialize (Hcont x k eq_refl). destruct (value x) as [v|] eqn:Evx; [|congruence].
    destruct post as [|r post].
    + cbn [oapp] in Ef. destruct (enabled extend_map default_extend (Some v)) eqn:Ee; [|discriminate].
      destruct (Nat.ltb _ _); [|discriminate]. cbn [andb] in Ef. injection Ef as <-. apply repeat_spec in Ho. subst t'.
      apply (Hpre x k v); auto.
    + destruct (ostreq (Some v) (value r)); [|discriminate]. cbn [oapp andb] in Ef.
      destruct (enabled merge_map default_merge (Some v)) eqn:Ee; [|discriminate]. injection Ef as <-.
      apply repeat_spec in Ho. subst t'. apply (Hpre x k v); auto.
Qed.
End Theorems.

(** prefixes: a merged gap becomes part of the entity before it *)
Example C16_ex : extended_line_tags [] [] true true
   [None; Some (u "b-x"); Some (u "i-x"); None; Some (u "b-x"); Some (u "b-y"); None; Some (u "i-x")] =
   [Some (u "b-x"); Some (u "i-x"); Some (u "i-x"); Some (u "i-x"); Some (u "i-x"); Some (u "b-y"); None; Some (u "i-x")].
Proof. reflexivity. Qed.
Example C16_ex_off : extended_line_tags [(u "x", false)] [(u "y", false)] true false
   [None; Some (u "b-x"); Some (u "i-x"); None; Some (u "b-x"); Some (u "b-y"); None; Some (u "i-x")] =
   [None; Some (u "b-x"); Some (u "i-x"); None; Some (u "b-x"); Some (u "b-y"); None; Some (u "i-x")].
Proof. reflexivity. Qed.
Example C16_ex_hyp : Forall plain ([None; None; Some (u "b-x")] ++ [None] ++ [Some (u "i-x"); Some (u "x")]) /\
  maximal [None; None; Some (u "b-x")] [None] [Some (u "i-x"); Some (u "x")] /\
  gap_result (fun _ => true) (fun _ => true) [None; None; Some (u "b-x")] 1 [Some (u "i-x"); Some (u "x")] = [Some (u "i-x")].
Proof.
  split; [|split; [|reflexivity]].
  - repeat constructor; try (now left); now right.
  - split; [discriminate|]. split; [repeat constructor|]. split; cbn; discriminate.
Qed.

Print Assumptions C16_runs.
Print Assumptions C16_length.
Print Assumptions C16_value.
Print Assumptions C16_gap.
