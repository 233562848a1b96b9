(** C95, C96: command lines. *)
From Coq Require Import QArith.
From Verif Require Import Base ModelTarget PropTarget ModelMapping PropMapping ModelJoined ModelLineNumbers ModelPipeline ModelCommands ModelFiles ModelArgs.
Open Scope list_scope.
Open Scope nat_scope.

(* ---------------------------------------------------------------- *)
(** ** Specification of the command line *)
Section Reads.
Variable dg : N -> bool.
Variable ds : list decl.
Definition is_declared (n : str) : Prop := exists d, In d ds /\ dc_name d = n.
Definition declared (n : str) (k : kind) : Prop := exists d, In d ds /\ dc_name d = n /\ dc_kind d = k.
(** a beginning of the name *)
Definition begins (s n : str) : Prop := exists r, n = s ++ r.
(** [s] is written for the option [n]: its name, or a beginning of it that no other option has *)
Definition stands (s n : str) : Prop :=
  is_declared n /\ (s = n \/ ~ is_declared s /\ begins hyphens s /\ forall n', is_declared n' -> begins s n' <-> n' = n).
(** a negative number: digits, or digits with a point; there may be a newline at the end *)
Definition digits (s : str) : Prop := forall x, In x s -> dg x = true.
Definition negative (v : str) : Prop :=
  exists s e, v = HYPHEN :: s ++ e /\ (e = [] \/ e = [10%N]) /\
    (s <> [] /\ digits s \/ exists a z, s = a ++ ch_dot :: z /\ digits a /\ z <> [] /\ digits z).
(** what is before the first ["="] *)
Definition stem (v s : str) : Prop := (v = s \/ exists e, v = s ++ ch_eq :: e) /\ ~ In ch_eq s.
(** a word that is not taken for an option: it does not start with ["-"], or is only that; or it is a
    negative number or has a blank, and is no (beginning of an) option *)
Definition plain (v : str) : Prop :=
  (forall r, v <> HYPHEN :: r) \/ v = [HYPHEN] \/
  ((negative v \/ In BLANK v) /\ ~ begins (u "-h") v /\ (begins hyphens v -> forall s n, stem v s -> is_declared n -> ~ begins s n)).
(** the words of a command line and the options that it sets *)
Inductive reads : list str -> occurrences -> Prop :=
| reads_nil : reads [] []
| reads_flag s n ws occ : stands s n -> declared n KFlag -> reads ws occ -> reads (s :: ws) ((n, None) :: occ)
| reads_joined s n ok v ws occ : stands s n -> declared n (KValue ok) -> ok v = true -> v <> hyphens -> reads ws occ ->
    reads ((s ++ ch_eq :: v) :: ws) ((n, Some v) :: occ)
| reads_next s n ok v ws occ : stands s n -> declared n (KValue ok) -> ok v = true -> plain v -> reads ws occ ->
    reads (s :: v :: ws) ((n, Some v) :: occ).
(** all that is required is given *)
Definition complete (occ : occurrences) : Prop := forall d, In d ds -> dc_required d = true -> In (dc_name d) (map fst occ).

(** the options: [-h] and long names without ["="], no two with the same name, and more than one long one *)
Definition well_declared : Prop :=
  NoDup (map dc_name ds) /\ is_declared (u "-h") /\
  (exists n n', n <> n' /\ is_declared n /\ is_declared n' /\ begins hyphens n /\ begins hyphens n') /\
  forall d, In d ds -> (dc_name d = u "-h" /\ dc_kind d = KHelp) \/ (begins hyphens (dc_name d) /\ dc_name d <> hyphens /\ ~ In ch_eq (dc_name d)).
Hypothesis WD : well_declared.
(** newline and point are no digits *)
Hypothesis Hdg : dg 10%N = false /\ dg ch_dot = false.

(* ---------------------------------------------------------------- *)
(** ** Proofs *)
Lemma begins_spec s n : begins s n <-> starts_with s n = true.
Proof. symmetry. apply starts_with_spec. Qed.
Lemma find_decl_some s d : find_decl ds s = Some d -> In d ds /\ dc_name d = s.
Proof. intros H. apply find_some in H as [H1 H2]. split; [exact H1|]. now apply streq_true. Qed.
Lemma find_decl_none s : find_decl ds s = None <-> ~ is_declared s.
Proof.
  split.
  - intros H (d & Hd & E). apply (find_none _ _ H) in Hd. rewrite E, streq_refl in Hd. discriminate.
  - intros H. destruct (find_decl ds s) as [d|] eqn:E; [|reflexivity]. exfalso. apply H. exists d. now apply find_decl_some.
Qed.
Lemma decl_unique d d' : In d ds -> In d' ds -> dc_name d = dc_name d' -> d = d'.
Proof.
  destruct WD as (Nd & _). revert Nd. induction ds as [|x l IH]; [easy|]. cbn [map]. intros Hn [H1|H1] [H2|H2] E; inversion Hn as [|? ? N1 N2]; subst.
  - reflexivity.
  - exfalso. apply N1. rewrite E. now apply in_map.
  - exfalso. apply N1. rewrite <- E. now apply in_map.
  - now apply IH.
Qed.
Lemma find_decl_in d : In d ds -> find_decl ds (dc_name d) = Some d.
Proof.
  intros H. destruct (find_decl ds (dc_name d)) as [d'|] eqn:E.
  - apply find_decl_some in E as [E1 E2]. f_equal. now apply decl_unique.
  - apply find_decl_none in E. exfalso. apply E. now exists d.
Qed.
Lemma stem_cut v : stem v (match cut ch_eq v with Some (a, _) => a | None => v end).
Proof.
  destruct (cut ch_eq v) as [[a b]|] eqn:E.
  - apply cut_some in E as [-> H]. split; [right; now exists b|exact H].
  - split; [now left|]. now apply cut_none in E.
Qed.
Lemma cut_eq_app s e : ~ In ch_eq s -> cut ch_eq (s ++ ch_eq :: e) = Some (s, e).
Proof. intros H. now apply cut_some. Qed.
Lemma stem_unique v s : stem v s -> s = match cut ch_eq v with Some (a, _) => a | None => v end.
Proof.
  intros [[->|[e ->]] H].
  - now rewrite (proj2 (cut_none ch_eq s) H).
  - now rewrite cut_eq_app.
Qed.

Lemma names_shape n : is_declared n -> n = u "-h" \/ (begins hyphens n /\ n <> hyphens /\ ~ In ch_eq n).
Proof. destruct WD as (_ & _ & _ & S). intros (d & Hd & <-). destruct (S d Hd) as [[E _]|E]; auto. Qed.
Lemma names_no_eq n : is_declared n -> ~ In ch_eq n.
Proof. intros H. destruct (names_shape n H) as [-> |(_ & _ & E)]; [cbn; intuition discriminate|exact E]. Qed.
Lemma begins_trans a b c : begins a b -> begins b c -> begins a c.
Proof. intros [r ->] [r' ->]. exists (r ++ r'). now rewrite app_assoc. Qed.
Lemma begins_no_eq s n : begins s n -> ~ In ch_eq n -> ~ In ch_eq s.
Proof. intros [r ->] H Hs. apply H. apply in_or_app. now left. Qed.
Lemma stands_no_eq s n : stands s n -> ~ In ch_eq s.
Proof.
  intros [Hn [-> |(_ & _ & H)]]; [now apply names_no_eq|]. apply (begins_no_eq s n); [now apply H|now apply names_no_eq].
Qed.
Lemma hyphens_long s : begins hyphens s -> exists x r, s = HYPHEN :: x :: r.
Proof. intros [r ->]. now exists HYPHEN, r. Qed.
Lemma filter_one (f : decl -> bool) d : In d ds -> (forall d', In d' ds -> f d' = true <-> d' = d) -> filter f ds = [d].
Proof.
  destruct WD as (Nd & _). revert Nd. induction ds as [|x l IH]; [easy|]. cbn [map]. intros Hn Hin H. inversion Hn as [|? ? N1 N2]; subst.
  cbn [filter]. destruct (f x) eqn:E.
  - assert (x = d) by (apply (H x); [now left|exact E]). subst x. f_equal.
    assert (F : forall y, In y l -> f y = false).
    { intros y Hy. destruct (f y) eqn:Ey; [|reflexivity]. apply (H y) in Ey; [|now right]. subst y. exfalso. apply N1. now apply in_map. }
    clear - F. induction l as [|y l IH]; [reflexivity|]. cbn [filter]. rewrite (F y) by now left. apply IH. intros z Hz. apply F. now right.
  - destruct Hin as [->|Hin]; [assert (f d = true) by (apply H; [now left|reflexivity]); congruence|]. apply IH; auto. intros d' Hd'. apply H. now right.
Qed.
Lemma filter_stands s d : In d ds -> (forall n', is_declared n' -> begins s n' <-> n' = dc_name d) -> filter (fun d' => starts_with s (dc_name d')) ds = [d].
Proof.
  intros Hd H. apply filter_one; [exact Hd|]. intros d' Hd'. rewrite <- begins_spec, H by (now exists d'). split; [|now intros ->].
  intros E. now apply decl_unique.
Qed.
Lemma classify_hyphen r : classify dg ds (HYPHEN :: r) =
  match find_decl ds (HYPHEN :: r) with
  | Some d => WOption d None
  | None =>
      match r with
      | [] => WValue (HYPHEN :: r)
      | _ =>
          match match cut ch_eq (HYPHEN :: r) with Some (a, e) => option_map (fun d => (d, e)) (find_decl ds a) | None => None end with
          | Some (d, e) => WOption d (Some e)
          | None =>
              match option_tuples ds (HYPHEN :: r) with
              | [(d, e)] => WOption d e
              | _ :: _ => WWrong
              | [] => if negative_number dg (HYPHEN :: r) then WValue (HYPHEN :: r) else if has BLANK (HYPHEN :: r) then WValue (HYPHEN :: r) else WWrong
              end
          end
      end
  end.
Proof. reflexivity. Qed.
Lemma name_hyphen n : is_declared n -> exists x r, n = HYPHEN :: x :: r.
Proof. intros H. destruct (names_shape n H) as [-> |(E & _)]; [now exists 104%N, []|now apply hyphens_long]. Qed.
Lemma classify_stands s n : stands s n -> exists d, In d ds /\ dc_name d = n /\ classify dg ds s = WOption d None.
Proof.
  intros Hs. pose proof (stands_no_eq s n Hs) as Hq. destruct Hs as [Hn Hs]. destruct Hn as (d & Hd & <-). exists d. repeat split; [exact Hd|].
  destruct Hs as [-> |(H1 & H2 & H3)].
  - destruct (name_hyphen (dc_name d)) as (x & r & E); [now exists d|]. rewrite E, classify_hyphen, <- E. now rewrite find_decl_in.
  - destruct (hyphens_long s H2) as (x & r & E). subst s. rewrite classify_hyphen, (proj2 (find_decl_none _) H1), (proj2 (cut_none ch_eq _) Hq).
    unfold option_tuples. rewrite (proj1 (begins_spec _ _) H2), (proj2 (cut_none ch_eq _) Hq). cbn [fst snd]. now rewrite (filter_stands _ d Hd H3).
Qed.
Lemma classify_joined s n v : stands s n -> exists d, In d ds /\ dc_name d = n /\ classify dg ds (s ++ ch_eq :: v) = WOption d (Some v).
Proof.
  intros Hs. pose proof (stands_no_eq s n Hs) as Hq. destruct Hs as [Hn Hs]. destruct Hn as (d & Hd & <-). exists d. repeat split; [exact Hd|].
  assert (Nd : find_decl ds (s ++ ch_eq :: v) = None).
  { apply find_decl_none. intros H. apply names_no_eq in H. apply H. apply in_or_app. right. now left. }
  assert (Ex : exists x r, s = HYPHEN :: x :: r). { destruct Hs as [-> |(_ & H2 & _)]; [apply name_hyphen; now exists d|now apply hyphens_long]. }
  destruct Ex as (x & r & ->). cbn [app] in *. rewrite classify_hyphen, Nd.
  change (HYPHEN :: x :: r ++ ch_eq :: v) with ((HYPHEN :: x :: r) ++ ch_eq :: v). rewrite cut_eq_app by exact Hq.
  destruct Hs as [E|(H1 & H2 & H3)].
  - rewrite E, find_decl_in by exact Hd. reflexivity.
  - rewrite (proj2 (find_decl_none _) H1). cbn [option_map]. unfold option_tuples.
    assert (Hb : starts_with hyphens ((HYPHEN :: x :: r) ++ ch_eq :: v) = true). { apply begins_spec. apply (begins_trans _ _ _ H2). now exists (ch_eq :: v). }
    rewrite Hb, cut_eq_app by exact Hq. cbn [fst snd]. now rewrite (filter_stands _ d Hd H3).
Qed.
(** numbers *)
Lemma digits_spec s : forallb dg s = true <-> digits s.
Proof. apply forallb_forall. Qed.
Lemma all_digits_spec s : all_digits dg s = true <-> s <> [] /\ digits s.
Proof. unfold all_digits. destruct s as [|x s]; [split; [discriminate|intros [H _]; now destruct H]|]. rewrite digits_spec. split; [intros H; split; [discriminate|exact H]|intros [_ H]; exact H]. Qed.
Lemma chomp_spec s : exists e, s = chomp s ++ e /\ (e = [] \/ e = [10%N]).
Proof.
  unfold chomp. destruct (rev s) as [|x r] eqn:E; [exists []; split; [now rewrite app_nil_r|now left]|].
  destruct (N.eq_dec x 10) as [-> |H].
  - exists [10%N]. split; [|now right]. apply (f_equal (@rev N)) in E. rewrite rev_involutive in E. exact E.
  - exists []. rewrite app_nil_r. split; [|now left]. destruct x as [|p]; [reflexivity|]. repeat (destruct p; try reflexivity). now destruct H.
Qed.
Lemma chomp_app s e : (e = [] \/ e = [10%N]) -> ~ In 10%N s -> chomp (s ++ e) = s.
Proof.
  intros [-> | ->] H.
  - rewrite app_nil_r. destruct (chomp_spec s) as (e & E & [-> | ->]); [now rewrite app_nil_r in E|]. exfalso. apply H. rewrite E. apply in_or_app. right. now left.
  - unfold chomp. rewrite rev_app_distr. cbn [rev app]. apply rev_involutive.
Qed.
Lemma negative_spec v : negative_number dg v = true <-> negative v.
Proof.
  unfold negative_number, negative. destruct v as [|x r]; [split; [discriminate|intros (s & e & H & _); discriminate]|].
  rewrite andb_true_iff, N.eqb_eq, orb_true_iff, all_digits_spec. split.
  - intros (-> & H). destruct (chomp_spec r) as (e & E & He). exists (chomp r), e. split; [now rewrite <- E|]. split; [exact He|].
    destruct H as [H|H]; [now left|right]. destruct (cut ch_dot (chomp r)) as [[a z]|] eqn:Ec; [|discriminate]. apply cut_some in Ec as [Ec _].
    apply andb_true_iff in H as [H1 H2]. rewrite digits_spec in H1. rewrite all_digits_spec in H2. exists a, z. tauto.
  - intros (s & e & E & He & H). injection E as -> ->. split; [reflexivity|]. destruct H as [H|(a & z & -> & A & Z1 & Z2)].
    + left. rewrite chomp_app; [exact H|exact He|]. intros Hi. apply H in Hi. destruct Hdg. congruence.
    + right. rewrite chomp_app; [|exact He|].
      * assert (Na : ~ In ch_dot a) by (intros Hi; apply A in Hi; destruct Hdg; congruence).
        rewrite (proj2 (cut_some ch_dot (a ++ ch_dot :: z) a z) (conj eq_refl Na)). apply andb_true_iff. rewrite digits_spec, all_digits_spec. tauto.
      * intros Hi. apply in_app_iff in Hi as [Hi|[Hi|Hi]]; [apply A in Hi; destruct Hdg; congruence|discriminate|apply Z2 in Hi; destruct Hdg; congruence].
Qed.
(** words that are not options *)
Lemma short_tuples r : ~ begins hyphens (HYPHEN :: r) -> r <> [] ->
  option_tuples ds (HYPHEN :: r) = [] \/ begins (u "-h") (HYPHEN :: r) /\ exists d e, In d ds /\ dc_kind d = KHelp /\ (option_tuples ds (HYPHEN :: r) = [(d, e)] \/ find_decl ds (HYPHEN :: r) = Some d).
Proof.
  intros Hb Hr. destruct r as [|x r]; [easy|]. assert (Hx : x <> HYPHEN) by (intros ->; apply Hb; now exists r).
  destruct (N.eq_dec x 104) as [-> |Hh].
  - right. split; [now exists r|]. destruct WD as (_ & (d & Hd & En) & _ & S). exists d.
    assert (K : dc_kind d = KHelp). { destruct (S d Hd) as [[_ K]|(K & _)]; [exact K|]. rewrite En in K. destruct K as [q K]. discriminate. }
    destruct r as [|y r].
    + exists None. repeat split; [exact Hd|exact K|]. right. change [HYPHEN; 104%N] with (u "-h"). rewrite <- En. now apply find_decl_in.
    + exists (Some (y :: r)). repeat split; [exact Hd|exact K|]. left. unfold option_tuples.
      destruct (starts_with hyphens (HYPHEN :: 104%N :: y :: r)) eqn:E; [apply begins_spec in E; now destruct Hb|].
      assert (F : forall d', In d' ds -> streq (dc_name d') (u "-h") = true <-> d' = d).
      { intros d' Hd'. rewrite streq_true. split; [intros Q; apply decl_unique; auto; congruence|now intros ->]. }
      assert (G : forall d', In d' ds -> starts_with (HYPHEN :: 104%N :: y :: r) (dc_name d') = false).
      { intros d' Hd'. destruct (starts_with _ (dc_name d')) eqn:Q; [|reflexivity]. apply begins_spec in Q. exfalso.
        destruct (names_shape (dc_name d')) as [Q'|((z & Q') & _)]; [now exists d'|rewrite Q' in Q; destruct Q as [z Q]; discriminate|rewrite Q' in Q; destruct Q as [w Q]; discriminate]. }
      transitivity (map (fun d0 => (d0, Some (y :: r))) (filter (fun d' => streq (dc_name d') (u "-h")) ds)).
      * clear - G. induction ds as [|d' l IH]; [reflexivity|]. cbn [flat_map filter]. change (firstn 2 (HYPHEN :: 104%N :: y :: r)) with (u "-h").
        change (skipn 2 (HYPHEN :: 104%N :: y :: r)) with (y :: r). rewrite (G d') by now left. destruct (streq (dc_name d') (u "-h")); cbn [app map]; rewrite <- IH by (intros z Hz; apply G; now right); reflexivity.
      * now rewrite (filter_one _ d Hd F).
  - left. unfold option_tuples. destruct (starts_with hyphens (HYPHEN :: x :: r)) eqn:E; [apply begins_spec in E; now destruct Hb|].
    assert (G : forall d', In d' ds -> streq (dc_name d') (firstn 2 (HYPHEN :: x :: r)) = false /\ starts_with (HYPHEN :: x :: r) (dc_name d') = false).
    { intros d' Hd'. assert (Q : is_declared (dc_name d')) by now exists d'. destruct (names_shape _ Q) as [Q'|((z & Q') & _)]; rewrite Q'.
      - split; [apply streq_false; cbn; intros W; injection W as W; now destruct Hh|]. cbn. destruct (N.eqb_spec x 104); [contradiction|reflexivity].
      - split; [apply streq_false; cbn; intros W; injection W as W; now destruct Hx|]. cbn. destruct (N.eqb_spec x HYPHEN); [contradiction|reflexivity]. }
    clear - G. induction ds as [|d' l IH]; [reflexivity|]. cbn [flat_map]. destruct (G d') as [-> ->]; [now left|]. cbn [app]. apply IH. intros z Hz. apply G. now right.
Qed.
Lemma classify_plain v : plain v -> classify dg ds v = WValue v.
Proof.
  intros [H|[-> |(Hn & Hh & Hb)]].
  - destruct v as [|x r]; [reflexivity|]. cbn [classify]. destruct (N.eqb_spec x HYPHEN) as [-> |_]; [now destruct (H r)|reflexivity].
  - rewrite classify_hyphen. destruct (find_decl ds [HYPHEN]) as [d|] eqn:E; [|reflexivity]. exfalso. apply find_decl_some in E as [E1 E2].
    destruct (name_hyphen [HYPHEN]) as (x & r & Q); [now exists d|discriminate].
  - destruct v as [|x r]; [reflexivity|]. cbn [classify]. destruct (N.eqb_spec x HYPHEN) as [-> |_]; [|reflexivity].
    change (classify dg ds (HYPHEN :: r) = WValue (HYPHEN :: r)). rewrite classify_hyphen.
    assert (F : forall a, stem (HYPHEN :: r) a -> find_decl ds a = None).
    { intros a Ha. apply find_decl_none. intros Q. destruct (names_shape a Q) as [-> |(Q1 & _)].
      - apply Hh. destruct Ha as [[-> |[e ->]] _]; [now exists []|now exists (ch_eq :: e)].
      - assert (Q2 : begins hyphens (HYPHEN :: r)). { apply (begins_trans _ _ _ Q1). destruct Ha as [[-> |[e ->]] _]; [exists []; now rewrite app_nil_r|now exists (ch_eq :: e)]. }
        apply (Hb Q2 a a Ha Q). exists []. now rewrite app_nil_r. }
    assert (F' : find_decl ds (HYPHEN :: r) = None).
    { destruct (find_decl ds (HYPHEN :: r)) as [d|] eqn:E; [|reflexivity]. exfalso. apply find_decl_some in E as [E1 E2].
      assert (Q : is_declared (HYPHEN :: r)) by now exists d. assert (Q1 : find_decl ds (HYPHEN :: r) = None) by (apply F; split; [now left|now apply names_no_eq]).
      apply find_decl_none in Q1. contradiction. }
    rewrite F'. destruct r as [|y r]; [reflexivity|].
    pose proof (stem_cut (HYPHEN :: y :: r)) as Hc.
    assert (F2 : match cut ch_eq (HYPHEN :: y :: r) with Some (a, e) => option_map (fun d => (d, e)) (find_decl ds a) | None => None end = None).
    { destruct (cut ch_eq (HYPHEN :: y :: r)) as [[a e]|]; [|reflexivity]. now rewrite (F a Hc). }
    rewrite F2.
    assert (T : option_tuples ds (HYPHEN :: y :: r) = []).
    { destruct (starts_with hyphens (HYPHEN :: y :: r)) eqn:E.
      - unfold option_tuples. rewrite E. apply begins_spec in E.
        assert (A : forall d, In d ds -> starts_with (match cut ch_eq (HYPHEN :: y :: r) with Some (a, _) => a | None => HYPHEN :: y :: r end) (dc_name d) = false).
        { intros d Hd. destruct (starts_with _ (dc_name d)) eqn:Q; [|reflexivity]. apply begins_spec in Q. exfalso.
          refine (Hb E _ (dc_name d) Hc _ Q). now exists d. }
        assert (W : forall f : decl -> bool, (forall d, In d ds -> f d = false) -> filter f ds = []).
        { clear. intros f A. induction ds as [|d l IH]; [reflexivity|]. cbn [filter]. rewrite (A d) by now left. apply IH. intros z Hz. apply A. now right. }
        rewrite W; [reflexivity|]. intros d Hd. rewrite <- (A d Hd). now destruct (cut ch_eq (HYPHEN :: y :: r)) as [[a e]|].
      - destruct (short_tuples (y :: r)) as [T|(T & _)]; [intros Q; apply begins_spec in Q; congruence|discriminate|exact T|contradiction]. }
    rewrite T. destruct Hn as [Hn|Hn].
    + now rewrite (proj2 (negative_spec _) Hn).
    + rewrite (proj2 (has_spec _ _) Hn). now destruct (negative_number dg (HYPHEN :: y :: r)).
Qed.
Lemma tuples_hyphens s d e : ~ is_declared s -> begins hyphens s ->
  (match cut ch_eq s with Some (a, _) => is_declared a -> False | None => True end) ->
  option_tuples ds s = [(d, e)] -> In d ds /\ exists k, stands k (dc_name d) /\ match e with None => s = k | Some v => s = k ++ ch_eq :: v end.
Proof.
  intros Hs Hb Hc H. unfold option_tuples in H. rewrite (proj1 (begins_spec _ _) Hb) in H.
  set (k := fst match cut ch_eq s with Some (a, e) => (a, Some e) | None => (s, None) end) in *.
  destruct (filter (fun d => starts_with k (dc_name d)) ds) as [|d1 [|d2 l]] eqn:F; try discriminate. cbn [map] in H. injection H as -> He.
  assert (Hd : In d (filter (fun d => starts_with k (dc_name d)) ds)) by (rewrite F; now left). apply filter_In in Hd. split; [apply Hd|].
  assert (U : forall n', is_declared n' -> begins k n' <-> n' = dc_name d).
  { intros n' (d' & Hd' & <-). split; [|intros ->; apply begins_spec, Hd]. intros Q. apply begins_spec in Q.
    assert (In d' (filter (fun d => starts_with k (dc_name d)) ds)) by (apply filter_In; auto). rewrite F in H. destruct H as [-> |[]]. reflexivity. }
  exists k. assert (Ek : match e with None => s = k | Some v => s = k ++ ch_eq :: v end).
  { subst k e. destruct (cut ch_eq s) as [[a v]|] eqn:E; cbn [fst snd]; [|reflexivity]. now apply cut_some in E. }
  split; [|exact Ek]. split; [now exists d|]. right. split; [|split; [|exact U]].
  - subst k e. destruct (cut ch_eq s) as [[a v]|]; cbn [fst] in *; [exact Hc|exact Hs].
  - destruct e as [v|]; [|now rewrite <- Ek]. destruct (hyphens_long s Hb) as (y & r & ->). destruct Hb as [r' Hb]. cbn in Hb. injection Hb as -> _.
    destruct k as [|a [|b0 k]]; cbn in Ek.
    + injection Ek as Ek _. discriminate.
    + injection Ek as _ Ek _. discriminate.
    + injection Ek as <- <- _. now exists k.
Qed.
Lemma classify_inv s : match classify dg ds s with
  | WValue v => v = s /\ plain s
  | WOption d e => In d ds /\ (dc_kind d = KHelp \/ exists k, stands k (dc_name d) /\ match e with None => s = k | Some v => s = k ++ ch_eq :: v end)
  | WWrong => True end.
Proof.
  destruct s as [|x r]; [split; [reflexivity|left; discriminate]|]. destruct (N.eq_dec x HYPHEN) as [-> |Hx].
  2:{ cbn [classify]. destruct (N.eqb_spec x HYPHEN); [contradiction|]. cbn. split; [reflexivity|]. left. intros r' Q. injection Q as -> _. now destruct Hx. }
  rewrite classify_hyphen. destruct (find_decl ds (HYPHEN :: r)) as [d|] eqn:Ef.
  { apply find_decl_some in Ef as [E1 E2]. split; [exact E1|]. right. exists (HYPHEN :: r). split; [|reflexivity]. split; [now exists d|now left]. }
  destruct r as [|y r]; [split; [reflexivity|right; now left]|]. set (s := HYPHEN :: y :: r) in *.
  destruct (match cut ch_eq s with Some (a, e) => option_map (fun d => (d, e)) (find_decl ds a) | None => None end) as [[d e]|] eqn:Ec.
  { destruct (cut ch_eq s) as [[a e']|] eqn:Eq; [|discriminate]. destruct (find_decl ds a) as [d'|] eqn:Ea; [|discriminate]. cbn in Ec. injection Ec as -> ->.
    apply find_decl_some in Ea as [E1 E2]. apply cut_some in Eq as [Eq _]. split; [exact E1|]. right. exists a. split; [|exact Eq]. split; [now exists d|now left]. }
  assert (Hc : match cut ch_eq s with Some (a, _) => is_declared a -> False | None => True end).
  { destruct (cut ch_eq s) as [[a e]|]; [|exact I]. destruct (find_decl ds a) as [d|] eqn:Ea; [discriminate|]. now apply find_decl_none in Ea. }
  apply find_decl_none in Ef.
  destruct (option_tuples ds s) as [|[d e] [|t l]] eqn:Et; [|destruct (starts_with hyphens s) eqn:Eb|exact I].
  - assert (P : negative s \/ In BLANK s -> plain s).
    { intros Hn. right. right. split; [exact Hn|]. split.
      - intros Hh. destruct (starts_with hyphens s) eqn:Eb; [apply begins_spec in Eb; destruct Hh as [z Hh], Eb as [z' Eb]; rewrite Eb in Hh; discriminate|].
        destruct Hh as [z Hh]. unfold s in Hh. cbn in Hh. injection Hh as -> ->.
        destruct WD as (_ & (d & Hd & En) & _). unfold option_tuples in Et. rewrite Eb in Et.
        assert (Q : In (d, Some z) ([] : list (decl * ostr))); [|destruct Q]. rewrite <- Et. apply in_flat_map. exists d. split; [exact Hd|].
        assert (En' : streq (dc_name d) (firstn 2 s) = true) by (apply streq_true; exact En). rewrite En'. now left.
      - intros Hb k n Hk Hn' Q. unfold option_tuples in Et. rewrite (proj1 (begins_spec _ _) Hb) in Et.
        destruct Hn' as (d & Hd & <-). apply stem_unique in Hk. apply map_eq_nil in Et.
        assert (W : In d []); [|destruct W]. rewrite <- Et. apply filter_In. split; [exact Hd|]. apply begins_spec.
        destruct (cut ch_eq s) as [[a e]|]; cbn [fst]; now rewrite <- Hk. }
    destruct (negative_number dg s) eqn:En; [split; [reflexivity|]; apply P; left; now apply negative_spec|].
    destruct (has BLANK s) eqn:Eh; [split; [reflexivity|]; apply P; right; now apply has_spec|exact I].
  - apply begins_spec in Eb. destruct (tuples_hyphens s d e Ef Eb Hc Et) as [T1 T2]. split; [exact T1|]. now right.
  - destruct (short_tuples (y :: r)) as [T|(_ & d' & e' & T1 & T2 & [T3|T3])]; [intros Q; apply begins_spec in Q; unfold s in Eb; congruence|discriminate|unfold s in Et; congruence| |].
    + assert (d' = d) by (unfold s in Et; congruence). subst d'. split; [exact T1|now left].
    + exfalso. apply Ef. apply find_decl_some in T3. now exists d'.
Qed.
Lemma not_hyphens s n : stands s n -> s <> hyphens.
Proof.
  intros [Hn [H|(_ & _ & H)]] ->.
  - destruct (names_shape n Hn) as [E|(_ & E & _)]; [rewrite E in H; discriminate|congruence].
  - destruct WD as (_ & _ & (n1 & n2 & D & H1 & H2 & B1 & B2) & _). apply D. transitivity n; [|symmetry]; now apply H.
Qed.
Lemma plain_not_hyphens v : plain v -> v <> hyphens.
Proof.
  intros [H|[-> |(_ & _ & H)]] E; [now apply (H [HYPHEN])|discriminate|]. subst v.
  destruct WD as (_ & _ & (n1 & n2 & D & H1 & H2 & B1 & B2) & _). refine (H _ hyphens n1 _ H1 B1); [now exists []|]. split; [now left|].
  cbn. intuition discriminate.
Qed.
Lemma reads_no_hyphens argv occ : reads argv occ -> ~ In hyphens argv.
Proof.
  induction 1 as [|s n ws occ H1 H2 H3 IH|s n ok v ws occ H1 H2 H3 H4 H5 IH|s n ok v ws occ H1 H2 H3 H4 H5 IH]; [easy| | |].
  - intros [E|E]; [apply (not_hyphens _ _ H1 E)|contradiction].
  - intros [E|E]; [|contradiction]. assert (Q : In ch_eq hyphens) by (rewrite <- E; apply in_or_app; right; now left). cbn in Q. intuition discriminate.
  - intros [E|[E|E]]; [apply (not_hyphens _ _ H1 E)|apply (plain_not_hyphens _ H4 E)|contradiction].
Qed.
Lemma classify_stands' s d : In d ds -> stands s (dc_name d) -> classify dg ds s = WOption d None.
Proof. intros Hd H. destruct (classify_stands s _ H) as (d' & Hd' & En & E). now rewrite <- (decl_unique d' d Hd' Hd En). Qed.
Lemma classify_joined' s d v : In d ds -> stands s (dc_name d) -> classify dg ds (s ++ ch_eq :: v) = WOption d (Some v).
Proof. intros Hd H. destruct (classify_joined s _ v H) as (d' & Hd' & En & E). now rewrite <- (decl_unique d' d Hd' Hd En). Qed.
Lemma reads_consume argv occ : reads argv occ -> consume (map (classify dg ds) argv) = Some occ.
Proof.
  induction 1 as [|s n ws occ H1 (d & Hd & En & Ek) H3 IH|s n ok v ws occ H1 (d & Hd & En & Ek) H3 H4 H5 IH|s n ok v ws occ H1 (d & Hd & En & Ek) H3 H4 H5 IH]; [reflexivity| | |]; cbn [map]; subst n.
  - rewrite (classify_stands' s d Hd H1). cbn [consume]. rewrite Ek, IH. reflexivity.
  - rewrite (classify_joined' s d v Hd H1). cbn [consume]. rewrite Ek, IH. unfold takes. rewrite (proj2 (streq_false _ _) H4), H3. reflexivity.
  - rewrite (classify_stands' s d Hd H1), (classify_plain v H4). cbn [consume]. rewrite Ek, IH. unfold takes.
    rewrite (proj2 (streq_false _ _) (plain_not_hyphens v H4)), H3. reflexivity.
Qed.
Lemma consume_reads : forall k argv occ, length argv <= k -> consume (map (classify dg ds) argv) = Some occ -> reads argv occ.
Proof.
  induction k as [|k IH]; intros argv occ Hl H.
  - destruct argv; [|cbn in Hl; lia]. cbn in H. injection H as <-. constructor.
  - destruct argv as [|s ws]; [cbn in H; injection H as <-; constructor|]. cbn [map consume] in H. cbn [length] in Hl.
    pose proof (classify_inv s) as C. destruct (classify dg ds s) as [v|d e|] eqn:Es; [discriminate| |discriminate].
    destruct C as [Hd C]. destruct (dc_kind d) as [| |ok] eqn:Ek; [discriminate| |].
    + destruct C as [C|(n & C & Ee)]; [discriminate|]. destruct e as [e|]; [discriminate|]. subst n.
      destruct (consume (map (classify dg ds) ws)) as [o|] eqn:Ew; [|discriminate]. cbn in H. injection H as <-.
      apply reads_flag; [exact C|now exists d|]. apply IH; [lia|exact Ew].
    + destruct C as [C|(n & C & Ee)]; [discriminate|]. destruct e as [e|].
      * subst s. unfold takes in H. destruct (streq e hyphens) eqn:Eh; [discriminate|]. destruct (ok e) eqn:Eo; [|discriminate].
        destruct (consume (map (classify dg ds) ws)) as [o|] eqn:Ew; [|discriminate]. cbn in H. injection H as <-.
        apply reads_joined with ok; [exact C|now exists d|exact Eo|now apply streq_false|]. apply IH; [lia|exact Ew].
      * subst n. destruct ws as [|w ws]; [discriminate|]. cbn [map] in H. pose proof (classify_inv w) as Cw.
        destruct (classify dg ds w) as [v|d' e'|] eqn:Ev; [|discriminate|discriminate]. destruct Cw as [-> Cw].
        unfold takes in H. destruct (streq w hyphens) eqn:Eh; [discriminate|]. destruct (ok w) eqn:Eo; [|discriminate].
        destruct (consume (map (classify dg ds) ws)) as [o|] eqn:Ew; [|discriminate]. cbn in H. injection H as <-.
        apply reads_next with ok; [exact C|now exists d|exact Eo|exact Cw|]. apply IH; [cbn in Hl; lia|exact Ew].
Qed.
Lemma given_spec n occ : given n occ = true <-> In n (map fst occ).
Proof.
  unfold given. rewrite existsb_exists, in_map_iff. split.
  - intros (kv & H1 & H2). exists kv. split; [now apply streq_true|exact H1].
  - intros (kv & H1 & H2). exists kv. split; [exact H2|now apply streq_true].
Qed.
(** the words of a command line are read in one way, or the command stops *)
Theorem C95_parse argv occ : parse_argv dg ds argv = Some occ <-> reads argv occ /\ complete occ.
Proof.
  unfold parse_argv. split.
  - intros H. destruct (mem hyphens argv) eqn:Em; [discriminate|].
    destruct (consume (map (classify dg ds) argv)) as [o|] eqn:Ec; [|discriminate].
    destruct (forallb _ ds) eqn:Ef; [|discriminate]. injection H as <-. split; [now apply (consume_reads (length argv))|].
    intros d Hd Hr. rewrite forallb_forall in Ef. specialize (Ef d Hd). rewrite Hr in Ef. now apply given_spec.
  - intros [Hr Hc]. destruct (mem hyphens argv) eqn:Em; [exfalso; apply (reads_no_hyphens _ _ Hr); now apply mem_In|].
    rewrite (reads_consume _ _ Hr). assert (Ef : forallb (fun d => negb (dc_required d) || given (dc_name d) occ) ds = true).
    { apply forallb_forall. intros d Hd. destruct (dc_required d) eqn:Er; [|reflexivity]. apply given_spec. now apply Hc. }
    now rewrite Ef.
Qed.
(** options may be written in full, with their values joined, and none is then mistaken *)
Definition written (o : str * ostr) : str := match snd o with Some v => fst o ++ ch_eq :: v | None => fst o end.
Definition well_set (o : str * ostr) : Prop :=
  match snd o with None => declared (fst o) KFlag | Some v => exists ok, declared (fst o) (KValue ok) /\ ok v = true /\ v <> hyphens end.
Theorem C95_full occ : (forall o, In o occ -> well_set o) -> complete occ -> parse_argv dg ds (map written occ) = Some occ.
Proof.
  intros H Hc. apply C95_parse. split; [|exact Hc]. clear Hc. induction occ as [|[n o] occ IH]; [constructor|].
  assert (H1 : well_set (n, o)) by (apply H; now left). assert (IH' : reads (map written occ) occ) by (apply IH; intros x Hx; apply H; now right).
  cbn [map]. unfold well_set in H1. cbn in H1. destruct o as [v|]; cbn.
  - destruct H1 as (ok & (d & Hd & En & Ek) & Ho & Hv). apply reads_joined with ok; try assumption; [|now exists d]. split; [now exists d|now left].
  - destruct H1 as (d & Hd & En & Ek). apply reads_flag; [|now exists d|exact IH']. split; [now exists d|now left].
Qed.
(** one reading only *)
Theorem C95_one argv occ occ' : reads argv occ -> reads argv occ' -> occ = occ'.
Proof. intros H H'. apply reads_consume in H, H'. congruence. Qed.
End Reads.

(* ---------------------------------------------------------------- *)
(** ** The options of the commands are well declared *)
Fixpoint distinct (l : list str) : bool := match l with [] => true | x :: l' => negb (mem x l') && distinct l' end.
Lemma distinct_NoDup l : distinct l = true -> NoDup l.
Proof.
  induction l as [|x l IH]; [constructor|]. cbn [distinct]. intros H. apply andb_true_iff in H as [H1 H2]. constructor; [|now apply IH].
  intros Hx. apply mem_In in Hx. rewrite Hx in H1. discriminate.
Qed.
Lemma NoDup_two {A} (l m : list A) : NoDup l -> NoDup m -> (forall x, In x m -> ~ In x l) -> NoDup (l ++ m).
Proof.
  induction l as [|x l IH]; intros H1 H2 H3; [exact H2|]. inversion H1 as [|? ? N1 N2]; subst. cbn. constructor.
  - intros Hx. apply in_app_or in Hx as [Hx|Hx]; [contradiction|]. apply (H3 x Hx). now left.
  - apply IH; auto. intros y Hy Hl. apply (H3 y Hy). now right.
Qed.
(** the names that a command itself declares *)
Definition own_names (a : arg_libs) (c : command) : list str := map dc_name (help_decls ++ pipeline_decls (mkArgLibs (ag_sp a) (ag_dg a) (ag_int a) (ag_float a) (ag_order a) [] (ag_process_cloud a)) ++ main_decls a c ++ [debug_decl]).
Section Command.
Variable a : arg_libs.
Variable c : command.
(** what is assumed of the options for running in the cloud: long names, no two the same, none of them one of those of the commands *)
Definition cloud_fresh : Prop :=
  NoDup (map dc_name (ag_cloud a)) /\
  forall d, In d (ag_cloud a) -> (forall c', ~ In (dc_name d) (own_names a c')) /\ begins hyphens (dc_name d) /\ dc_name d <> hyphens /\ ~ In ch_eq (dc_name d).
Definition long_ok (n : str) : bool := starts_with hyphens n && negb (streq n hyphens) && negb (has ch_eq n).
Lemma long_ok_spec n : long_ok n = true -> begins hyphens n /\ n <> hyphens /\ ~ In ch_eq n.
Proof.
  unfold long_ok. intros H. apply andb_true_iff in H as [H H3]. apply andb_true_iff in H as [H1 H2]. repeat split.
  - now apply begins_spec.
  - apply negb_true_iff in H2. now apply streq_false.
  - apply negb_true_iff in H3. now apply has_false.
Qed.
Definition base_decls : list decl := pipeline_decls (mkArgLibs (ag_sp a) (ag_dg a) (ag_int a) (ag_float a) (ag_order a) [] (ag_process_cloud a)).
Lemma pipeline_split : pipeline_decls a = base_decls ++ ag_cloud a.
Proof. reflexivity. Qed.
Lemma in_command d : In d (command_decls a c) <-> In d (help_decls ++ base_decls ++ main_decls a c ++ [debug_decl]) \/ In d (ag_cloud a).
Proof. unfold command_decls. rewrite pipeline_split, !in_app_iff. tauto. Qed.
Theorem C95_declared : cloud_fresh -> well_declared (command_decls a c).
Proof.
  intros [Hn Hc]. assert (D : NoDup (own_names a c)) by (unfold own_names; apply distinct_NoDup; destruct c; vm_compute; reflexivity). repeat split.
  - apply (Permutation.Permutation_NoDup (l := own_names a c ++ map dc_name (ag_cloud a))).
    + unfold own_names, command_decls. rewrite pipeline_split. fold base_decls. rewrite !map_app, <- !app_assoc.
      apply Permutation.Permutation_app_head. apply Permutation.Permutation_app_head. rewrite app_assoc. apply Permutation.Permutation_app_comm || (rewrite !app_assoc; apply Permutation.Permutation_app_comm).
    + apply NoDup_two; auto. intros x Hx. apply in_map_iff in Hx as (d & <- & Hd). now apply Hc.
  - exists (mkDecl (u "-h") KHelp false). split; [now left|reflexivity].
  - exists (u "--help"), (u "--debug"). split; [discriminate|]. split; [exists (mkDecl (u "--help") KHelp false); split; [right; now left|reflexivity]|].
    split; [exists debug_decl; split; [|reflexivity]; apply in_command; left; rewrite !in_app_iff; right; right; right; now left|]. split; [now exists (u "help")|now exists (u "debug")].
  - intros d Hd. apply in_command in Hd as [Hd|Hd]; [|right; now apply Hc].
    assert (F : forallb (fun d => match dc_kind d with KHelp => streq (dc_name d) (u "-h") || long_ok (dc_name d) | _ => long_ok (dc_name d) end) (help_decls ++ base_decls ++ main_decls a c ++ [debug_decl]) = true) by (destruct c; vm_compute; reflexivity).
    rewrite forallb_forall in F. specialize (F d Hd). cbv beta in F. destruct (dc_kind d) eqn:Ek; [|right; now apply long_ok_spec|right; now apply long_ok_spec].
    apply orb_true_iff in F as [F|F]; [left; split; [now apply streq_true|reflexivity]|right; now apply long_ok_spec].
Qed.
(** required are the paths of the output and of the target documents, and the expression for their names *)
Theorem C95_required occ : (forall d, In d (ag_cloud a) -> dc_required d = false) ->
  complete (command_decls a c) occ <-> (forall n, In n [u "--output-path"; u "--xml-path"; u "--xml-filename-regex"] -> In n (map fst occ)).
Proof.
  intros Hc. unfold complete. split.
  - intros H n Hn. assert (E : exists d, In d base_decls /\ dc_name d = n /\ dc_required d = true).
    { destruct Hn as [<-|[<-|[<-|[]]]]; [exists (required "--output-path")|exists (required "--xml-path")|exists (required "--xml-filename-regex")]; (split; [unfold base_decls, pipeline_decls; cbn [app]; cbn [In]; tauto|split; reflexivity]). }
    destruct E as (d & Hd & <- & Hr). apply H; [|exact Hr]. apply in_command. left. rewrite !in_app_iff. tauto.
  - intros H d Hd Hr. apply in_command in Hd as [Hd|Hd]; [|rewrite (Hc d Hd) in Hr; discriminate]. apply H.
    assert (F : forallb (fun d => negb (dc_required d) || mem (dc_name d) [u "--output-path"; u "--xml-path"; u "--xml-filename-regex"]) (help_decls ++ base_decls ++ main_decls a c ++ [debug_decl]) = true) by (destruct c; vm_compute; reflexivity).
    rewrite forallb_forall in F. specialize (F d Hd). cbv beta in F. rewrite Hr in F. now apply mem_In.
Qed.

(* ---------------------------------------------------------------- *)
(** ** Specification of the options *)
(** the option is given; it is given with this value last *)
Definition gives (occ : occurrences) (n : string) : Prop := In (u n) (map fst occ).
Definition sets (occ : occurrences) (n : string) (v : str) : Prop := exists p q, occ = p ++ (u n, Some v) :: q /\ ~ In (u n) (map fst q).
(** the value of an option: converted from what is given last, or the default *)
Inductive chosen {A} (occ : occurrences) (n : string) (default : A) (conv : str -> A -> Prop) : A -> Prop :=
| chosen_default : ~ gives occ n -> chosen occ n default conv default
| chosen_value v x : sets occ n v -> conv v x -> chosen occ n default conv x.
(** the items of a list, and of a list that changes the defaults *)
Definition same_set (l l' : list str) : Prop := forall x, In x l <-> In x l'.
Inductive selects (defaults : list str) (v : str) (l : list str) : Prop :=
| selects_plain : ~ signed (comma_list (ag_sp a) v) -> same_set l (comma_list (ag_sp a) v) -> selects defaults v l
| selects_signed : signed (comma_list (ag_sp a) v) ->
    (let st := statements true (comma_list (ag_sp a) v) in
     feasible defaults st /\ forall x, In x l <-> removes x st < count x defaults + adds x st) -> selects defaults v l.
Definition fields_given (occ : occurrences) (n : string) (defaults l : list str) : Prop :=
  (~ gives occ n /\ same_set l defaults) \/ exists v, sets occ n v /\ selects defaults v l.
Definition itself (v x : str) : Prop := x = v.
Definition items (v : str) (l : list str) : Prop := l = comma_list (ag_sp a) v.
(** the last of two options *)
Definition last_of (occ : occurrences) (n n' : string) : Prop :=
  exists p o q, occ = p ++ (u n, o) :: q /\ ~ In (u n') (map fst q).
Definition gives_opt (occ : occurrences) (n : option string) : Prop := exists m, n = Some m /\ gives occ m.

(** white space is no printable ASCII character; a set has the elements of the list *)
Hypothesis Hsp : forall x, (33 <= x <= 126)%N -> ag_sp a x = false.
Hypothesis Horder : forall l, same_set (ag_order a l) l.

Lemma last_value_app n p q : ~ In (u n) (map fst q) -> last_value n (p ++ q) = last_value n p.
Proof.
  unfold last_value. rewrite fold_left_app. generalize (fold_left (fun (acc : ostr) kv => if streq (fst kv) (u n) then snd kv else acc) p None).
  induction q as [|[k o] q IH]; intros acc H; [reflexivity|]. cbn [fold_left fst snd map In] in *.
  destruct (streq k (u n)) eqn:E; [apply streq_true in E; destruct H; now left|]. apply IH. intros G. apply H. now right.
Qed.
Lemma last_value_sets n occ v : last_value n occ = Some v <-> sets occ n v.
Proof.
  split.
  - revert v. induction occ as [|[k o] occ IH] using rev_ind; intros v H; [discriminate|].
    destruct (streq k (u n)) eqn:E.
    + unfold last_value in H. rewrite fold_left_app in H. cbn [fold_left fst snd] in H. rewrite E in H. apply streq_true in E. subst k o. exists occ, []. split; [reflexivity|easy].
    + assert (Q : ~ In (u n) (map fst [(k, o)])) by (cbn; intros [G|[]]; subst; rewrite streq_refl in E; discriminate).
      rewrite last_value_app in H by exact Q. destruct (IH v H) as (p & q & -> & G). exists p, (q ++ [(k, o)]). split; [now rewrite <- app_assoc|].
      rewrite map_app, in_app_iff. intros [W|W]; contradiction.
  - intros (p & q & -> & H). change ((u n, Some v) :: q) with ([(u n, Some v)] ++ q). rewrite app_assoc, last_value_app by exact H.
    unfold last_value. rewrite fold_left_app. cbn [fold_left fst snd]. now rewrite streq_refl.
Qed.
Lemma last_value_none n occ : (forall o, In (u n, o) occ -> o <> None) -> last_value n occ = None -> ~ gives occ n.
Proof.
  unfold gives. induction occ as [|[k o] occ IH] using rev_ind; intros Hv H; [easy|]. rewrite map_app, in_app_iff.
  destruct (streq k (u n)) eqn:E.
  - unfold last_value in H. rewrite fold_left_app in H. cbn [fold_left fst snd] in H. rewrite E in H. apply streq_true in E. subst k o.
    exfalso. apply (Hv None); [|reflexivity]. apply in_or_app. right. now left.
  - assert (Q : ~ In (u n) (map fst [(k, o)])) by (cbn; intros [G|[]]; subst; rewrite streq_refl in E; discriminate).
    rewrite last_value_app in H by exact Q. intros [W|W]; [|contradiction]. revert W. apply IH; [|exact H]. intros o' Ho. apply Hv. apply in_or_app. now left.
Qed.
(** every option that is given is declared, with a value or not, and the value is accepted *)
Definition as_declared (occ : occurrences) : Prop := forall n o, In (n, o) occ ->
  (declared (command_decls a c) n KFlag /\ o = None) \/ exists ok v, declared (command_decls a c) n (KValue ok) /\ o = Some v /\ ok v = true.
Lemma reads_declared argv occ : reads (ag_dg a) (command_decls a c) argv occ -> as_declared occ.
Proof.
  induction 1 as [|s n ws occ H1 H2 H3 IH|s n ok v ws occ H1 H2 H3 H4 H5 IH|s n ok v ws occ H1 H2 H3 H4 H5 IH]; intros m o Hm; [easy| | |]; destruct Hm as [E|Hm]; try (now apply IH); injection E as <- <-.
  - left. now split.
  - right. now exists ok, v.
  - right. now exists ok, v.
Qed.
Section Parsed.
Variable occ : occurrences.
Hypothesis AD : as_declared occ.
Hypothesis WD : well_declared (command_decls a c).
Lemma declared_kind n k k' : declared (command_decls a c) n k -> declared (command_decls a c) n k' -> k = k'.
Proof. intros (d & H1 & H2 & <-) (d' & H3 & H4 & <-). f_equal. apply (decl_unique _ WD); congruence. Qed.
(** an option with a value, if there is such an option *)
Definition is_value (n : string) (ok : str -> bool) : Prop := is_declared (command_decls a c) (u n) -> declared (command_decls a c) (u n) (KValue ok).
Lemma value_cases n ok : is_value n ok ->
  (last_value n occ = None /\ ~ gives occ n) \/ exists v, last_value n occ = Some v /\ sets occ n v /\ ok v = true.
Proof.
  intros K. assert (Hv : forall o, In (u n, o) occ -> exists v, o = Some v /\ ok v = true).
  { intros o Ho. destruct (AD _ _ Ho) as [[D _]|(ok' & v & D & -> & Hok)].
    - assert (Q : declared (command_decls a c) (u n) (KValue ok)) by (apply K; destruct D as (d & ? & ? & _); now exists d). pose proof (declared_kind _ _ _ D Q). discriminate.
    - assert (Q : declared (command_decls a c) (u n) (KValue ok)) by (apply K; destruct D as (d & ? & ? & _); now exists d). pose proof (declared_kind _ _ _ D Q) as E. injection E as ->. now exists v. }
  destruct (last_value n occ) as [v|] eqn:E.
  - right. exists v. split; [reflexivity|]. pose proof (proj1 (last_value_sets _ _ _) E) as S. split; [exact S|]. destruct S as (p & q & -> & _).
    destruct (Hv (Some v)) as (w & [= ->] & W); [apply in_or_app; right; now left|exact W].
  - left. split; [reflexivity|]. apply last_value_none; [|exact E]. intros o Ho ->. destruct (Hv None Ho) as (v & Q & _). discriminate.
Qed.
Lemma flag_spec n : has_flag n occ = true <-> gives occ n.
Proof. apply given_spec. Qed.
Lemma option_spec n : has_option n occ = true <-> gives_opt occ n.
Proof.
  unfold gives_opt. destruct n as [n|]; cbn [has_option].
  - rewrite flag_spec. split; [intros H; now exists n|intros (m & [= <-] & H); exact H].
  - split; [discriminate|intros (m & Q & _); discriminate].
Qed.
Lemma int_spec n d : is_value n (fun v => is_some (ag_int a v)) -> chosen occ n d (fun v z => ag_int a v = Some z) (int_or a n d occ).
Proof.
  intros K. unfold int_or. destruct (value_cases n _ K) as [[-> H]|(v & -> & H & Hok)]; [now constructor|].
  destruct (ag_int a v) as [z|] eqn:E; [|discriminate]. now apply chosen_value with v.
Qed.
Lemma text_spec n d ok : is_value n ok -> chosen occ n d itself (value_or n d occ).
Proof.
  intros K. unfold value_or. destruct (value_cases n _ K) as [[-> H]|(v & -> & H & Hok)]; [now constructor|]. now apply chosen_value with v.
Qed.
Lemma ostr_spec n ok : is_value n ok -> chosen occ n None (fun v x => x = Some v) (last_value n occ).
Proof.
  intros K. destruct (value_cases n _ K) as [[-> H]|(v & -> & H & Hok)]; [now constructor|]. now apply chosen_value with v.
Qed.
Lemma list_spec n ok : is_value n ok -> chosen occ n [] items (list_of a n occ).
Proof.
  intros K. unfold list_of. destruct (value_cases n _ K) as [[-> H]|(v & -> & H & Hok)]; [now constructor|]. now apply chosen_value with v.
Qed.
Lemma strip_printable s : (forall x, In x s -> (33 <= x <= 126)%N) -> strip (ag_sp a) s = s.
Proof.
  intros H. destruct (strip_spec (ag_sp a) s) as (w & w' & E & W & W' & _).
  assert (N : forall w, (forall x, In x w -> In x s) -> forallb (ag_sp a) w = true -> w = []).
  { intros [|x r] I F; [reflexivity|]. cbn in F. rewrite Hsp in F by (apply H, I; now left). discriminate. }
  assert (w = []). { apply N; [|exact W]. intros x Hx. rewrite E. apply in_or_app. now left. }
  assert (w' = []). { apply N; [|exact W']. intros x Hx. rewrite E. apply in_or_app. right. apply in_or_app. now right. }
  subst w w'. now rewrite app_nil_r in E.
Qed.
Definition printable_name (s : str) : bool := forallb (fun x => N.leb 33 x && N.leb x 126 && negb (N.eqb x ch_comma)) s.
Lemma printable_spec s : printable_name s = true -> (forall x, In x s -> (33 <= x <= 126)%N) /\ ~ In ch_comma s.
Proof.
  unfold printable_name. rewrite forallb_forall. intros H. split.
  - intros x Hx. specialize (H x Hx). apply andb_true_iff in H as [H _]. apply andb_true_iff in H as [H1 H2]. apply N.leb_le in H1, H2. lia.
  - intros Hx. specialize (H _ Hx). rewrite N.eqb_refl in H. discriminate.
Qed.
Lemma join_comma l : join_str [ch_comma] l = join_with ch_comma l.
Proof. induction l as [|x [|y l] IH]; [reflexivity|reflexivity|]. cbn [join_str join_with] in *. now rewrite IH. Qed.
Lemma join_chars l x : (forall n, In n l -> printable_name n = true) -> In x (join_with ch_comma l) -> (33 <= x <= 126)%N.
Proof.
  induction l as [|y [|z l] IH]; intros H Hx; [easy| |].
  - apply (printable_spec y); [apply H; now left|exact Hx].
  - cbn [join_with] in Hx. apply in_app_or in Hx as [Hx|[<-|Hx]].
    + apply (printable_spec y); [apply H; now left|exact Hx].
    + unfold ch_comma. lia.
    + apply IH; [intros n Hn; apply H; now right|exact Hx].
Qed.
Lemma default_list l d : l <> [] -> join_with ch_comma l <> [] -> (forall n, In n l -> printable_name n = true) -> ~ signed l ->
  plus_minus_list (ag_sp a) (join_str [ch_comma] l) d = Ok l.
Proof.
  intros Hl Hj H Hs. rewrite join_comma. assert (E : comma_list (ag_sp a) (join_with ch_comma l) = l).
  { unfold comma_list. rewrite strip_printable by (intros x; now apply join_chars). destruct (join_with ch_comma l) as [|q0 q1] eqn:Q; [congruence|]. rewrite <- Q.
    rewrite split_on_joined; [|exact Hl|apply Forall_forall; intros n Hn; now apply printable_spec, H].
    rewrite <- (map_id l) at 2. apply map_ext_in. intros n Hn. apply strip_printable. now apply printable_spec, H. }
  rewrite C38_plain; rewrite E; [reflexivity|exact Hs].
Qed.
Lemma count_in x l : In x l <-> 0 < count x l.
Proof.
  unfold count. split.
  - intros H. assert (Q : In x (filter (streq x) l)) by (apply filter_In; split; [exact H|apply streq_refl]). destruct (filter (streq x) l); [easy|cbn; lia].
  - intros H. destruct (filter (streq x) l) as [|y r] eqn:E; [cbn in H; lia|]. assert (Q : In y (filter (streq x) l)) by (rewrite E; now left).
    apply filter_In in Q as [Q1 Q2]. apply streq_true in Q2. now subst.
Qed.
Lemma signed_dec l : signed l \/ ~ signed l.
Proof.
  destruct l as [|[|x r] m]; [right; intros (?&?&?&?&_); discriminate|right; intros (?&?&?&?&_); discriminate|].
  destruct (N.eq_dec x ch_plus) as [-> |N1]; [left; exists ch_plus, r, m; auto|]. destruct (N.eq_dec x ch_minus) as [-> |N2]; [left; exists ch_minus, r, m; auto|].
  right. intros (y & r' & m' & [= <- <- <-] & [E|E]); contradiction.
Qed.
Lemma fields_spec n d : is_value n (fun v => is_ok (plus_minus_list (ag_sp a) v d)) ->
  (d = [] \/ join_with ch_comma d <> [] /\ (forall n, In n d -> printable_name n = true) /\ ~ signed d) ->
  fields_given occ n d (fields_of a n d occ).
Proof.
  intros K Hd. unfold fields_of, fields_given. destruct (value_cases n _ K) as [[-> H]|(v & -> & H & Hok)].
  - left. split; [exact H|]. destruct d as [|x d]; [easy|]. destruct Hd as [Hd|(D1 & D2 & D3)]; [discriminate|].
    unfold field_set. rewrite (default_list (x :: d)) by (try assumption; discriminate). apply Horder.
  - right. exists v. split; [exact H|]. unfold field_set. destruct (signed_dec (comma_list (ag_sp a) v)) as [S|S].
    + apply selects_signed; [exact S|]. destruct (C38_counts (ag_sp a) v d S) as [C1 C2]. cbv zeta in *.
      set (st := statements true (comma_list (ag_sp a) v)) in *.
      destruct (plus_minus_list (ag_sp a) v d) as [r|e] eqn:E; [|discriminate].
      assert (F : feasible d st).
      { intros p y q Q. destruct (Nat.lt_decidable (removes y p) (count y d + adds y p)) as [L|L]; [exact L|].
        exfalso. assert (NF : ~ feasible d st) by (intros F; apply L, (F p y q Q)). specialize (C2 NF). discriminate. }
      split; [exact F|]. intros x. destruct (C1 F) as (r' & [= <-] & Hc). rewrite (Horder r x), count_in. specialize (Hc x). lia.
    + apply selects_plain; [exact S|]. rewrite C38_plain by exact S. apply Horder.
Qed.
Lemma last_of_spec : line_numbers_of occ = true <-> last_of occ "--use-line-number-annotator" "--no-line-number-annotator".
Proof.
  unfold line_numbers_of, last_of. clear AD. induction occ as [|[k o] l IH] using rev_ind.
  - split; [discriminate|]. intros (p & o & q & E & _). now destruct p.
  - rewrite fold_left_app. cbn [fold_left fst]. destruct (streq k (u "--use-line-number-annotator")) eqn:E1.
    + apply streq_true in E1. subst k. split; [|reflexivity]. intros _. now exists l, o, [].
    + apply streq_false in E1. destruct (streq k (u "--no-line-number-annotator")) eqn:E2.
      * apply streq_true in E2. subst k. split; [discriminate|]. intros (p & o' & q & E & H). exfalso.
        destruct q as [|y q] using rev_ind; [apply app_inj_tail in E as [_ E]; discriminate|].
        rewrite app_comm_cons, app_assoc in E. apply app_inj_tail in E as [_ <-]. apply H. rewrite map_app. apply in_or_app. right. now left.
      * apply streq_false in E2. rewrite IH. split.
        -- intros (p & o' & q & -> & H). exists p, o', (q ++ [(k, o)]). split; [now rewrite <- app_assoc|]. rewrite map_app, in_app_iff. intros [W|[W|[]]]; [contradiction|]. now apply E2.
        -- intros (p & o' & q & E & H). destruct q as [|y q _] using rev_ind; [apply app_inj_tail in E as [_ E]; congruence|].
           rewrite app_comm_cons, app_assoc in E. apply app_inj_tail in E as [-> <-]. exists p, o', q. split; [reflexivity|]. intros W. apply H. rewrite map_app. apply in_or_app. now left.
Qed.
End Parsed.

Hypothesis fresh : cloud_fresh.
Lemma own_value n ok : (exists d, In d (help_decls ++ base_decls ++ main_decls a c ++ [debug_decl]) /\ dc_name d = u n /\ dc_kind d = KValue ok) \/ (~ In (u n) (own_names a c) /\ exists c', In (u n) (own_names a c')) ->
  is_value n ok.
Proof.
  intros [(d & H1 & H2 & H3)|[H (c' & Hc)]] D.
  - exists d. split; [|auto]. apply in_command. now left.
  - exfalso. destruct D as (d & Hd & E). apply in_command in Hd as [Hd|Hd].
    + apply H. rewrite <- E. unfold own_names. now apply in_map.
    + destruct fresh as [_ F]. destruct (F d Hd) as [F' _]. apply (F' c'). now rewrite E.
Qed.
Lemma own_base n ok d : dc_name d = u n -> dc_kind d = KValue ok -> In d base_decls -> is_value n ok.
Proof. intros. apply own_value. left. exists d. rewrite !in_app_iff. auto. Qed.
Ltac among := unfold base_decls, pipeline_decls; cbn [app]; solve [repeat (first [left; reflexivity|right])].
Ltac base := match goal with |- is_value ?n _ =>
  first [apply (own_base n _ (number a n)); [reflexivity|reflexivity|among]|apply (own_base n _ (text n)); [reflexivity|reflexivity|among]|apply (own_base n _ (required n)); [reflexivity|reflexivity|among]
    |apply (own_base n _ (value_of n (fun v => is_ok (parse_dict (ag_sp a) v)))); [reflexivity|reflexivity|among]
    |apply (own_base n _ (value_of n (fun v => is_some (ag_float a v)))); [reflexivity|reflexivity|among]
    |apply (own_base n _ (value_of n (fun v => mem v matcher_names))); [reflexivity|reflexivity|among]] end.
Definition all_true (v : str) : bool := true.

(** every option of a command is what is given last, or its default *)
Theorem C96_options argv occ : parse_argv (ag_dg a) (command_decls a c) argv = Some occ -> ag_dg a 10%N = false /\ ag_dg a ch_dot = false ->
  let o := options_of a c occ in
  fields_given occ "--fields" (default_fields c) (o_fields o)
  /\ fields_given occ "--sub-fields" (default_sub_fields c) (o_sub_fields o)
  /\ chosen occ "--xml-mapping-overrides" [] (fun v d => parse_dict (ag_sp a) v = Ok d) (o_overrides o)
  /\ chosen occ "--always-preserve-fields" [] items (o_always o)
  /\ chosen occ "--no-preserve-fields" [] items (o_no_preserve_fields o)
  /\ chosen occ "--no-preserve-sub-fields" [] items (o_no_preserve_sub o)
  /\ chosen occ "--matcher" true (fun v x => x = true /\ v = u "simple" \/ x = false /\ v = u "complex") (o_simple o)
  /\ chosen occ "--matcher-lookahead-lines" 500 (fun v k => exists z, ag_int a v = Some z /\ k = Z.to_nat z) (o_lookahead o)
  /\ chosen occ "--min-line-numbers-per-page" 10%Z (fun v z => ag_int a v = Some z) (o_min (o_line_cli o))
  /\ chosen occ "--max-line-number-gap" 10%Z (fun v z => ag_int a v = Some z) (o_gap (o_line_cli o))
  /\ chosen occ "--min-line-number-ratio" None (fun v x => x = Some v) (o_ratio (o_line_cli o))
  /\ (o_line_numbers o = true <-> last_of occ "--use-line-number-annotator" "--no-line-number-annotator")
  /\ (o_segment o = true <-> gives_opt occ (segment_option c)) /\ (o_remove o = true <-> gives_opt occ (remove_option c))
  /\ (o_no_preserve_tags o = true <-> gives occ "--no-preserve-tags") /\ (o_preserve_sub o = true <-> gives occ "--preserve-sub-tags")
  /\ (o_no_extend o = true <-> gives occ "--no-extend-to-line") /\ (o_previous o = true <-> gives occ "--expand-to-previous-untagged-lines")
  /\ (o_following o = true <-> gives occ "--expand-to-following-untagged-lines")
  /\ (o_idno_prefix o = true <-> gives occ "--include-idno-prefix") /\ (o_no_merge_references o = true <-> gives occ "--no-merge-references").
Proof.
  intros H Hdg. pose proof (C95_declared fresh) as WD. apply (C95_parse _ _ WD Hdg) in H as [H _]. apply reads_declared in H. cbv zeta. unfold options_of. cbn [o_fields o_sub_fields o_overrides o_no_preserve_tags o_always o_no_preserve_fields o_preserve_sub o_no_preserve_sub o_simple o_lookahead o_line_numbers o_line_cli o_segment o_remove o_no_extend o_previous o_following o_idno_prefix o_no_merge_references o_min o_gap o_ratio].
  split; [|split; [|split; [|split; [|split; [|split; [|split; [|split; [|split; [|split; [|split; [|split; [|split; [|split]]]]]]]]]]]]].
  15:{ repeat split; apply flag_spec. }
  14:{ apply option_spec. }
  13:{ apply option_spec. }
  12:{ now apply last_of_spec. }
  11:{ apply (ostr_spec occ H WD _ all_true). base. }
  10:{ apply (int_spec occ H WD). base. }
  9:{ apply (int_spec occ H WD). base. }
  8:{ assert (Q : chosen occ "--matcher-lookahead-lines" 500%Z (fun v z => ag_int a v = Some z) (int_or a "--matcher-lookahead-lines" 500 occ)) by (apply (int_spec occ H WD); base).
      destruct Q as [Q|v x Q1 Q2]; [now constructor|]. apply chosen_value with v; [exact Q1|]. now exists x. }
  7:{ assert (K : is_value "--matcher" (fun v => mem v matcher_names)) by base. unfold value_or.
      destruct (value_cases occ H WD _ _ K) as [[-> Q]|(v & -> & Q & Hok)]; [now constructor|]. apply chosen_value with v; [exact Q|].
      apply mem_In in Hok. destruct Hok as [<-|[<-|[]]]; [right|left]; now split. }
  6:{ apply (list_spec occ H WD _ all_true). apply own_value. destruct c; try (left; exists (text "--no-preserve-sub-fields"); rewrite !in_app_iff; cbn [main_decls sub_tags_decls app In]; split; [tauto|split; reflexivity]);
      right; (split; [intros Q; apply mem_In in Q; vm_compute in Q; discriminate|exists CFigure; apply mem_In; vm_compute; reflexivity]). }
  5:{ apply (list_spec occ H WD _ all_true). apply own_value. destruct c; try (left; exists (text "--no-preserve-fields"); rewrite !in_app_iff; cbn [main_decls checks_decls app In]; split; [tauto|split; reflexivity]);
      right; (split; [intros Q; apply mem_In in Q; vm_compute in Q; discriminate|exists CSegmentation; apply mem_In; vm_compute; reflexivity]). }
  4:{ apply (list_spec occ H WD _ all_true). base. }
  3:{ assert (K : is_value "--xml-mapping-overrides" (fun v => is_ok (parse_dict (ag_sp a) v))) by base. unfold overrides_of.
      destruct (value_cases occ H WD _ _ K) as [[-> Q]|(v & -> & Q & Hok)]; [now constructor|]. destruct (parse_dict (ag_sp a) v) as [d|] eqn:E; [|discriminate]. now apply chosen_value with v. }
  2:{ apply (fields_spec occ H WD).
      - apply own_value. destruct c; try (left; exists (fields_decl a "--sub-fields" (default_sub_fields CFulltext)); rewrite !in_app_iff; cbn [main_decls checks_decls default_sub_fields app In]; split; [tauto|split; reflexivity]);
        try (left; exists (fields_decl a "--sub-fields" []); rewrite !in_app_iff; cbn [main_decls default_sub_fields app In]; split; [tauto|split; reflexivity]);
        right; (split; [intros Q; apply mem_In in Q; vm_compute in Q; discriminate|exists CFulltext; apply mem_In; vm_compute; reflexivity]).
      - destruct c; try (now left). right. split; [vm_compute; discriminate|]. split; [apply forallb_forall; vm_compute; reflexivity|]. intros (x & r & m & E & _). cbn in E. discriminate. }
  apply (fields_spec occ H WD).
  - apply own_value. left. exists (fields_decl a "--fields" (default_fields c)). rewrite !in_app_iff. split; [|split; reflexivity]. right. right. left. destruct c; cbn [main_decls checks_decls sub_tags_decls app In]; tauto.
  - destruct c; (now left) || (right; split; [vm_compute; discriminate|]; split; [apply forallb_forall; vm_compute; reflexivity|]; intros (x & r & m & E & [W|W]); vm_compute in E; injection E as <- _ _; discriminate).
Qed.
(** the option that segments the text again and the one that removes what is not valid, by command *)
Definition segment_names : list (command * string) :=
  [(CFigure, "--segment-figures"); (CTable, "--segment-tables"); (CReference, "--segment-references"); (CAffiliation, "--segment-affiliation")].
Definition remove_names : list (command * string) := [(CReference, "--remove-invalid-references"); (CAffiliation, "--remove-invalid-affiliations")].
Theorem C96_named argv occ : parse_argv (ag_dg a) (command_decls a c) argv = Some occ -> ag_dg a 10%N = false /\ ag_dg a ch_dot = false ->
  (o_segment (options_of a c occ) = true <-> exists n, In (c, n) segment_names /\ gives occ n) /\
  (o_remove (options_of a c occ) = true <-> exists n, In (c, n) remove_names /\ gives occ n).
Proof.
  intros H Hdg. destruct (C96_options _ _ H Hdg) as (_ & _ & _ & _ & _ & _ & _ & _ & _ & _ & _ & _ & E1 & E2 & _). rewrite E1, E2. unfold gives_opt. split.
  - split; [intros (n & E & G)|intros (n & E & G)]; exists n; (split; [|exact G]).
    + destruct c; cbn [segment_option] in E; try discriminate E; injection E as <-; cbn [segment_names In]; tauto.
    + cbn [segment_names In] in E. repeat destruct E as [E|E]; try contradiction; injection E as <- <-; reflexivity.
  - split; [intros (n & E & G)|intros (n & E & G)]; exists n; (split; [|exact G]).
    + destruct c; cbn [remove_option] in E; try discriminate E; injection E as <-; cbn [remove_names In]; tauto.
    + cbn [remove_names In] in E. repeat destruct E as [E|E]; try contradiction; injection E as <- <-; reflexivity.
Qed.
(** the paths, the options of the checks and the threshold *)
Theorem C96_run_options argv occ : parse_argv (ag_dg a) (command_decls a c) argv = Some occ -> ag_dg a 10%N = false /\ ag_dg a ch_dot = false ->
  (forall d, In d (ag_cloud a) -> dc_required d = false) ->
  let ro := run_options_of a occ in
  sets occ "--output-path" (ro_output ro) /\ sets occ "--xml-path" (ro_xml ro) /\ sets occ "--xml-filename-regex" (ro_regex ro)
  /\ chosen occ "--failed-output-path" None (fun v x => x = Some v) (ro_failed ro)
  /\ chosen occ "--require-matching-fields" [] items (ro_matching ro) /\ chosen occ "--required-fields" [] items (ro_required ro)
  /\ chosen occ "--matcher-score-threshold" (4 # 5)%Q (fun v q => ag_float a v = Some q) (threshold_of a occ).
Proof.
  intros H Hdg Hr. pose proof (C95_declared fresh) as WD. apply (C95_parse _ _ WD Hdg) in H as [H Hc]. pose proof (proj1 (C95_required occ Hr) Hc) as Hc'. clear Hc. rename Hc' into Hc. apply reads_declared in H. cbv zeta. unfold run_options_of.
  cbn [ro_output ro_failed ro_xml ro_regex ro_matching ro_required].
  assert (R : forall n, is_value n all_true -> In (u n) (map fst occ) -> sets occ n (value_or n [] occ)).
  { intros n K G. destruct (text_spec occ H WD n [] all_true K) as [Q|v x Q1 ->]; [contradiction|exact Q1]. }
  split; [apply R; [base|apply Hc; cbn [In]; tauto]|]. split; [apply R; [base|apply Hc; cbn [In]; tauto]|]. split; [apply R; [base|apply Hc; cbn [In]; tauto]|].
  split; [apply (ostr_spec occ H WD _ all_true); base|].
  split; [apply (list_spec occ H WD _ all_true); apply own_value; destruct c; try (left; exists (text "--require-matching-fields"); rewrite !in_app_iff; cbn [main_decls checks_decls app In]; split; [tauto|split; reflexivity]);
      right; (split; [intros Q; apply mem_In in Q; vm_compute in Q; discriminate|exists CSegmentation; apply mem_In; vm_compute; reflexivity])|].
  split; [apply (list_spec occ H WD _ all_true); apply own_value; destruct c; try (left; exists (text "--required-fields"); rewrite !in_app_iff; cbn [main_decls checks_decls app In]; split; [tauto|split; reflexivity]);
      right; (split; [intros Q; apply mem_In in Q; vm_compute in Q; discriminate|exists CSegmentation; apply mem_In; vm_compute; reflexivity])|].
  assert (K : is_value "--matcher-score-threshold" (fun v => is_some (ag_float a v))) by base. unfold threshold_of.
  destruct (value_cases occ H WD _ _ K) as [[-> Q]|(v & -> & Q & Hok)]; [now constructor|]. destruct (ag_float a v) as [q|] eqn:E; [|discriminate]. now apply chosen_value with v.
Qed.
End Command.

(* ---------------------------------------------------------------- *)
(** ** Examples *)
Definition ex_int (s : str) : option Z :=
  if all_digits ascii_digit s then Some (fold_left (fun z x => (10 * z + (Z.of_N x - 48))%Z) s 0%Z) else None.
Definition ex_cloud : list decl := [flag "--cloud"; value_of "--num-workers" (fun v => is_some (ex_int v))].
Definition ex_args : arg_libs :=
  mkArgLibs ascii_space ascii_digit ex_int (fun s => option_map inject_Z (ex_int s)) (fun l => l) ex_cloud
    (fun occ => Some (mkCloud (given (u "--cloud") occ) 1)).
Definition ex_argv : list str :=
  [u "--source-path=a.tei.xml"; u "--output"; u "out"; u "--xml-path"; u "xml"; u "--xml-filename-regex"; u "/a/b/"; u "--fields=-author, abstract";
   u "--use-line"; u "--matcher=complex"; u "--matcher-look=3"; u "--no-line"; u "--matcher-look=7"; u "--matcher"; u "simple"; u "--use-line-number-annotator"].
Lemma ex_fresh : cloud_fresh ex_args.
Proof.
  split; [apply distinct_NoDup; reflexivity|].
  assert (F : forall c', forallb (fun d => negb (mem (dc_name d) (own_names ex_args c')) && long_ok (dc_name d)) (ag_cloud ex_args) = true) by (intros []; vm_compute; reflexivity).
  intros d Hd. split.
  - intros c' Q. specialize (F c'). rewrite forallb_forall in F. specialize (F d Hd). cbv beta in F. apply mem_In in Q. rewrite Q in F. discriminate.
  - specialize (F CHeader). rewrite forallb_forall in F. specialize (F d Hd). cbv beta in F. apply andb_true_iff in F as [_ F]. now apply long_ok_spec.
Qed.
Lemma ex_sp x : (33 <= x <= 126)%N -> ag_sp ex_args x = false.
Proof.
  intros H. cbn. unfold ascii_space. rewrite (proj2 (N.eqb_neq x 32)), (proj2 (N.leb_gt x 13)) by lia. now rewrite andb_false_r.
Qed.
Definition ex_occ : occurrences :=
  [(u "--source-path", Some (u "a.tei.xml")); (u "--output-path", Some (u "out")); (u "--xml-path", Some (u "xml")); (u "--xml-filename-regex", Some (u "/a/b/"));
   (u "--fields", Some (u "-author, abstract")); (u "--use-line-number-annotator", None); (u "--matcher", Some (u "complex"));
   (u "--matcher-lookahead-lines", Some (u "3")); (u "--no-line-number-annotator", None); (u "--matcher-lookahead-lines", Some (u "7"));
   (u "--matcher", Some (u "simple")); (u "--use-line-number-annotator", None)].
Example C96_named_example : (exists n, In (CAffiliation, n) remove_names /\ gives [(u "--remove-invalid-affiliations", None)] n) /\
  o_remove (options_of ex_args CAffiliation [(u "--remove-invalid-affiliations", None)]) = true /\
  o_remove (options_of ex_args CReference [(u "--remove-invalid-affiliations", None)]) = false.
Proof. split; [exists "--remove-invalid-affiliations"%string; split; [right; now left|]|vm_compute; auto]. now left. Qed.
(** abbreviations, values joined or in the next word, options given more than once *)
Example C95_example : well_declared (command_decls ex_args CSegmentation) /\ parse_argv ascii_digit (command_decls ex_args CSegmentation) ex_argv = Some ex_occ
  /\ reads ascii_digit (command_decls ex_args CSegmentation) ex_argv ex_occ
  /\ parse_argv ascii_digit (command_decls ex_args CSegmentation) (map written ex_occ) = Some ex_occ.
Proof.
  assert (W : well_declared (command_decls ex_args CSegmentation)) by apply C95_declared, ex_fresh.
  assert (E : parse_argv ascii_digit (command_decls ex_args CSegmentation) ex_argv = Some ex_occ) by (vm_compute; reflexivity).
  split; [exact W|]. split; [exact E|]. split; [apply (C95_parse _ _ W) in E; [apply E|split; reflexivity]|vm_compute; reflexivity].
Qed.
(** stopped: a beginning of two options, a value that is missing, a value that is not accepted, an option of another command, a word on its own,
    nothing for a required option, ["-h"] *)
Definition ex_required : list str := [u "--output-path=o"; u "--xml-path=x"; u "--xml-filename-regex=r"].
Example C95_ex_stops : parse_argv ascii_digit (command_decls ex_args CSegmentation) ex_required <> None
  /\ forall bad, In bad [[u "--source=a"]; [u "--fields"]; [u "--limit=many"]; [u "--matcher=other"]; [u "--segment-figures"]; [u "a"]; [u "-h"]; [u "-hx"]; [u "--he"]; [u "--debug=1"]; [u "--fields"; u "--debug"]; [u "--"]; [u "--fields=--"]; [u "-1"]] ->
     parse_argv ascii_digit (command_decls ex_args CSegmentation) (ex_required ++ bad) = None.
Proof. split; [vm_compute; discriminate|]. intros bad Hb. repeat (destruct Hb as [<-|Hb]; [vm_compute; reflexivity|]). destruct Hb. Qed.
Example C95_ex_required : parse_argv ascii_digit (command_decls ex_args CSegmentation) (removelast ex_required) = None /\ parse_argv ascii_digit (command_decls ex_args CSegmentation) (tl ex_required) = None.
Proof. split; vm_compute; reflexivity. Qed.
(** negative numbers and words with blanks may follow an option *)
Example C95_ex_plain : negative ascii_digit (u "-12.5") /\ plain ascii_digit (command_decls ex_args CHeader) (u "-a b")
  /\ parse_argv ascii_digit (command_decls ex_args CHeader) (ex_required ++ [u "--source-path"; u "-12.5"; u "--debug-match"; u "-a b"])
     = Some [(u "--output-path", Some (u "o")); (u "--xml-path", Some (u "x")); (u "--xml-filename-regex", Some (u "r")); (u "--source-path", Some (u "-12.5")); (u "--debug-match", Some (u "-a b"))].
Proof.
  split; [exists (u "12.5"), []; split; [reflexivity|]; split; [now left|]; right; exists (u "12"), (u "5"); split; [reflexivity|]; split; [|split; [discriminate|]]; intros x Hx; cbn in Hx; intuition (subst; reflexivity)|].
  split; [|vm_compute; reflexivity]. right. right. split; [right; cbn; tauto|]. split; [intros [r E]; discriminate|]. intros [r E]. discriminate.
Qed.
(** not every list of fields can be the next word: one that changes the defaults by ["-"] first has to be joined *)
Theorem C95_next_refuted : exists v, is_ok (plus_minus_list ascii_space v (default_fields CSegmentation)) = true
  /\ parse_argv ascii_digit (command_decls ex_args CSegmentation) (ex_required ++ [u "--fields"; v]) = None
  /\ parse_argv ascii_digit (command_decls ex_args CSegmentation) (ex_required ++ [u "--fields=" ++ v]) <> None.
Proof. exists (u "-author"). split; [vm_compute; reflexivity|]. split; vm_compute; [reflexivity|discriminate]. Qed.
Example C96_example : parse_argv (ag_dg ex_args) (command_decls ex_args CSegmentation) ex_argv = Some ex_occ
  /\ let o := options_of ex_args CSegmentation ex_occ in
     In (u "title") (o_fields o) /\ ~ In (u "author") (o_fields o) /\ ~ In (u "abstract") (o_fields o) /\ length (o_fields o) = 20
     /\ o_simple o = true /\ o_lookahead o = 7 /\ o_line_numbers o = true /\ o_min (o_line_cli o) = 10%Z /\ o_ratio (o_line_cli o) = None /\ o_no_merge_references o = false
     /\ sets ex_occ "--output-path" (ro_output (run_options_of ex_args ex_occ)).
Proof.
  split; [vm_compute; reflexivity|]. cbv zeta. repeat split; try (vm_compute; reflexivity).
  - apply mem_In. vm_compute. reflexivity.
  - intros Q. apply mem_In in Q. vm_compute in Q. discriminate.
  - intros Q. apply mem_In in Q. vm_compute in Q. discriminate.
  - apply last_value_sets. vm_compute. reflexivity.
Qed.

Print Assumptions C95_parse.
Print Assumptions C95_full.
Print Assumptions C95_one.
Print Assumptions C95_declared.
Print Assumptions C95_required.
Print Assumptions C95_next_refuted.
Print Assumptions C96_options.
Print Assumptions C96_run_options.
Print Assumptions C96_named.
