(** C46, C67: downloads *)
From Verif Require Import Base ModelPipeline PropPipeline ModelDownload.
Open Scope nat_scope.

(* ---------------------------------------------------------------- *)
(** ** Specification *)
Section Download.
Variable special : str -> context -> res str.
Variables to_relative to_absolute : str -> str -> str.
Notation plan_copies := (plan_copies special to_relative to_absolute).
(** the file of a row as it is looked for; and as it is read *)
Definition file_of (base : ostr) (row : str) : str := match base with Some ((_ :: _) as b) => to_absolute b row | _ => row end.
Definition read_file (base : ostr) (row : str) : str := file_of base (file_of base row).
Definition short_name (base : ostr) (row : str) : str := match base with Some ((_ :: _) as b) => to_relative b (file_of base row) | _ => row end.
(** the rows of which both files exist *)
Definition good_rows (f : files) (dc tc : config) (rows : list (str * str)) : list (str * str) :=
  filter (fun r => exists_file f (file_of (cf_base dc) (fst r)) && exists_file f (file_of (cf_base tc) (snd r))) rows.
(** the name of an output *)
Definition named_by (c : config) (ctx : context) (out : str) : Prop :=
  exists parts name, parse_format None (cf_pattern c) = Ok parts /\ eval_parts special ctx parts = Ok name /\
    out = file_of (Some (cf_output c)) (join_path (cf_output c) name).
Definition pair_ok (dc tc : config) (k : nat) (row : str * str) (d t : task) : Prop :=
  let pd := filename_props (short_name (cf_base dc) (fst row)) in
  let pt := filename_props (short_name (cf_base tc) (snd row)) in
  tk_src d = read_file (cf_base dc) (fst row) /\ tk_src t = read_file (cf_base tc) (snd row) /\
  tk_failed d = None /\ tk_failed t = None /\
  named_by dc (mkContext k pd pd pt) (tk_out d) /\ named_by tc (mkContext k pt pd pt) (tk_out t).

(* ---------------------------------------------------------------- *)
(** ** C46: pairs *)
Lemma fl_abs_make base l : fl_abs (make_list to_relative to_absolute base l) = map (file_of base) l.
Proof. unfold make_list, file_of. destruct base as [[|x b]|]; cbn [fl_abs]; [now rewrite map_id|reflexivity|now rewrite map_id]. Qed.
Definition short (base : ostr) (file : str) : str := match base with Some ((_ :: _) as b) => to_relative b file | _ => file end.
Lemma fl_rel_make base l : fl_rel (make_list to_relative to_absolute base l) = map (short base) l.
Proof. unfold make_list, short. destruct base as [[|x b]|]; cbn [fl_rel]; [now rewrite map_id|reflexivity|now rewrite map_id]. Qed.
Lemma fl_base_make base l : fl_base (make_list to_relative to_absolute base l) = base.
Proof. unfold make_list. destruct base as [[|x b]|]; reflexivity. Qed.
Lemma short_short base row : short base (file_of base row) = short_name base row.
Proof. unfold short, short_name, file_of. destruct base as [[|x b]|]; reflexivity. Qed.
Lemma combine_map {A B C D} (g : A -> B) (h : C -> D) l l' : combine (map g l) (map h l') = map (fun x => (g (fst x), h (snd x))) (combine l l').
Proof. revert l'. induction l as [|x l IH]; intros [|y l']; cbn; [reflexivity..|]. now rewrite IH. Qed.
Lemma select_fst {A B} (p : A * B -> bool) (rows : list (A * B)) {C} (g : A -> C) :
  map fst (filter snd (combine (map g (map fst rows)) (map p rows))) = map (fun r => g (fst r)) (filter p rows).
Proof. induction rows as [|r rows IH]; [reflexivity|]. cbn [map combine filter snd]. destruct (p r); cbn [map fst]; now rewrite IH. Qed.
Lemma select_snd {A B} (p : A * B -> bool) (rows : list (A * B)) {C} (g : B -> C) :
  map fst (filter snd (combine (map g (map snd rows)) (map p rows))) = map (fun r => g (snd r)) (filter p rows).
Proof. induction rows as [|r rows IH]; [reflexivity|]. cbn [map combine filter snd]. destruct (p r); cbn [map fst]; now rewrite IH. Qed.
Lemma combine_fst {A B} (l : list A) (l' : list B) : length l = length l' -> map fst (combine l l') = l.
Proof. revert l'. induction l as [|x l IH]; intros [|y l'] H; cbn in *; try discriminate; [reflexivity|]. now rewrite IH by lia. Qed.
Lemma combine_snd {A B} (l : list A) (l' : list B) : length l = length l' -> map snd (combine l l') = l'.
Proof. revert l'. induction l as [|x l IH]; intros [|y l'] H; cbn in *; try discriminate; [reflexivity|]. now rewrite IH by lia. Qed.
Lemma output_filenames_nth docs tgts pat i fs os : output_filenames special docs tgts pat i fs = Ok os ->
  length os = length fs /\
  forall k f, nth_error fs k = Some f -> exists o, nth_error os k = Some o /\ output_filename special docs tgts pat (i + k) f = Ok o.
Proof.
  revert i os. induction fs as [|f fs IH]; intros i os; cbn [output_filenames].
  - intros [= <-]. split; [reflexivity|]. intros [|k] x [=].
  - destruct (output_filename special docs tgts pat i f) as [o|e] eqn:E; cbn [bind]; [|discriminate].
    destruct (output_filenames special docs tgts pat (S i) fs) as [r|e] eqn:E'; cbn [bind]; [|discriminate]. intros [= <-].
    destruct (IH _ _ E') as [L N]. split; [cbn; now rewrite L|]. intros [|k] x Hx; cbn [nth_error] in *.
    + injection Hx as <-. exists o. rewrite Nat.add_0_r. auto.
    + destruct (N k x Hx) as (o' & H1 & H2). exists o'. split; [exact H1|]. now rewrite Nat.add_succ_r.
Qed.

Lemma tasks_nth (g : str * str -> str) (out : str -> str) good (o : list str) k row : nth_error good k = Some row -> length o = length good ->
  nth_error (map (fun x : str * str => mkTask (fst x) (snd x) None) (combine (map g good) (map out o))) k =
  option_map (fun y => mkTask (g row) (out y) None) (nth_error o k).
Proof.
  revert good o. induction k as [|k IH]; intros [|x good] [|y o] Hk Hl; cbn in *; try discriminate.
  - injection Hk as ->. reflexivity.
  - apply IH; [exact Hk|lia].
Qed.

(** Only rows of which both files exist are copied, all of these, and the documents and
    targets stay together, in the order of the rows. *)
Theorem C46_pairs f dc tc drows trows docs tgts : plan_copies f dc tc drows trows = Ok (docs, tgts) ->
  length drows = length trows /\
  let rows := good_rows f dc tc (combine drows trows) in
  length docs = length rows /\ length tgts = length rows /\ rows <> [] /\
  forall k row, nth_error rows k = Some row ->
    exists d t, nth_error docs k = Some d /\ nth_error tgts k = Some t /\ pair_ok dc tc k row d t.
Proof.
  unfold ModelDownload.plan_copies. cbv zeta. unfold select, pair_exists. rewrite !fl_abs_make, !fl_base_make, !map_map, combine_map, map_map. cbn [fst snd].
  rewrite !map_length, !combine_length.
  destruct (Nat.eqb (Nat.min (length drows) (length trows)) (length drows)) eqn:L1; cbn [bind]; [|discriminate].
  destruct (Nat.eqb (Nat.min (length drows) (length trows)) (length trows)) eqn:L2; cbn [bind]; [|discriminate].
  apply Nat.eqb_eq in L1, L2. assert (L : length drows = length trows) by lia. clear L1 L2.
  set (p := fun r : str * str => exists_file f (file_of (cf_base dc) (fst r)) && exists_file f (file_of (cf_base tc) (snd r))).
  set (rows := combine drows trows).
  assert (E1 : map (file_of (cf_base dc)) drows = map (file_of (cf_base dc)) (map fst rows)) by (unfold rows; now rewrite combine_fst).
  assert (E2 : map (file_of (cf_base tc)) trows = map (file_of (cf_base tc)) (map snd rows)) by (unfold rows; now rewrite combine_snd).
  rewrite E1, E2, (select_fst p rows), (select_snd p rows). clear E1 E2.
  change (filter p rows) with (good_rows f dc tc rows). set (good := good_rows f dc tc rows).
  rewrite !fl_abs_make, !fl_rel_make, !map_map.
  assert (S1 : map (fun x : str * str => short (cf_base dc) (file_of (cf_base dc) (fst x))) good = map (fun x => short_name (cf_base dc) (fst x)) good)
    by (apply map_ext; intros x; apply short_short).
  assert (S2 : map (fun x : str * str => short (cf_base tc) (file_of (cf_base tc) (snd x))) good = map (fun x => short_name (cf_base tc) (snd x)) good)
    by (apply map_ext; intros x; apply short_short).
  rewrite S1, S2, map_length. destruct (Nat.eqb (length good) 0) eqn:Lg; [discriminate|]. apply Nat.eqb_neq in Lg.
  unfold output_list. rewrite !fl_rel_make, !map_map, S1, S2.
  set (ds := map (fun x : str * str => short_name (cf_base dc) (fst x)) good). set (ts := map (fun x : str * str => short_name (cf_base tc) (snd x)) good).
  destruct (output_filenames special ds ts (cf_pattern dc) 0 ds) as [o1|e] eqn:O1; cbn [bind]; [|discriminate].
  destruct (output_filenames special ds ts (cf_pattern tc) 0 ts) as [o2|e] eqn:O2; cbn [bind]; [|discriminate].
  rewrite !fl_abs_make, !map_map. unfold copy_tasks. rewrite !map_length.
  destruct (output_filenames_nth _ _ _ _ _ _ O1) as [LO1 N1]. destruct (output_filenames_nth _ _ _ _ _ _ O2) as [LO2 N2].
  unfold ds, ts in LO1, LO2. rewrite map_length in LO1, LO2. rewrite LO1, LO2, Nat.eqb_refl. cbn [bind]. intros [= <- <-].
  split; [exact L|]. rewrite !map_length, !combine_length, !map_length, LO1, LO2, Nat.min_id. split; [reflexivity|]. split; [reflexivity|].
  split; [intros E; apply Lg; fold good in E; rewrite E; reflexivity|].
  intros k row Hk. fold good in Hk.
  assert (G := fun g o out => tasks_nth g out good o k row Hk).
  assert (Hd : nth_error ds k = Some (short_name (cf_base dc) (fst row))) by (unfold ds; rewrite nth_error_map, Hk; reflexivity).
  assert (Ht : nth_error ts k = Some (short_name (cf_base tc) (snd row))) by (unfold ts; rewrite nth_error_map, Hk; reflexivity).
  destruct (N1 k _ Hd) as (n1 & X1 & Y1). destruct (N2 k _ Ht) as (n2 & X2 & Y2). cbn [Nat.add] in Y1, Y2. unfold output_filename in Y1, Y2. rewrite Hd, Ht in Y1, Y2.
  destruct (parse_format None (cf_pattern dc)) as [p1|] eqn:P1; cbn [bind] in Y1; [|discriminate].
  destruct (parse_format None (cf_pattern tc)) as [p2|] eqn:P2; cbn [bind] in Y2; [|discriminate].
  eexists. eexists. split; [rewrite G by assumption; rewrite X1; reflexivity|]. split; [rewrite G by assumption; rewrite X2; reflexivity|].
  unfold pair_ok. cbn [tk_src tk_out tk_failed option_map]. repeat (split; [reflexivity|]).
  split; [exists p1, n1|exists p2, n2]; auto.
Qed.
(** Lists of different lengths, or without any pair, are an error. *)
Theorem C46_errors f dc tc drows trows :
  (length drows <> length trows -> plan_copies f dc tc drows trows = Err AssertionError) /\
  (length drows = length trows -> good_rows f dc tc (combine drows trows) = [] -> plan_copies f dc tc drows trows = Err ValueError).
Proof.
  unfold ModelDownload.plan_copies. cbv zeta. unfold select, pair_exists. rewrite !fl_abs_make, !fl_base_make, !map_map, combine_map, map_map. cbn [fst snd].
  rewrite !map_length, !combine_length. split.
  - intros H. destruct (Nat.eqb (Nat.min (length drows) (length trows)) (length drows)) eqn:L1; cbn [bind]; [|reflexivity].
    destruct (Nat.eqb (Nat.min (length drows) (length trows)) (length trows)) eqn:L2; cbn [bind]; [|reflexivity]. apply Nat.eqb_eq in L1, L2. lia.
  - intros L G. rewrite <- L, Nat.min_id, Nat.eqb_refl. cbn [bind].
    set (p := fun r : str * str => exists_file f (file_of (cf_base dc) (fst r)) && exists_file f (file_of (cf_base tc) (snd r))).
    assert (E1 : map (file_of (cf_base dc)) drows = map (file_of (cf_base dc)) (map fst (combine drows trows))) by (now rewrite combine_fst).
    rewrite E1, (select_fst p (combine drows trows)). change (filter p (combine drows trows)) with (good_rows f dc tc (combine drows trows)). rewrite G.
    rewrite fl_abs_make. reflexivity.
Qed.

(* ---------------------------------------------------------------- *)
(** ** C46: copies *)
(** Documents and then targets are copied by any number of threads: if nothing is written
    twice and no source is written, each output has the content of its source. *)
Theorem C46_copies f docs tgts threads k1 w1 k2 w2 :
  apart (docs ++ tgts) -> sources_kept (docs ++ tgts) ->
  (forall t, In t (docs ++ tgts) -> tk_failed t = None /\ exists c, f (tk_src t) = Some c) ->
  copy_steps docs threads k1 f w1 -> finished docs w1 ->
  copy_steps tgts threads k2 (w_files w1) w2 -> finished tgts w2 ->
  run_fails docs false w1 = false /\ run_fails tgts false w2 = false /\
  (forall t, In t (docs ++ tgts) -> w_files w2 (tk_out t) = f (tk_src t)) /\
  (forall p, (forall t, In t (docs ++ tgts) -> p <> tk_out t) -> w_files w2 p = f p).
Proof.
  intros Ha Hs Hf H1 F1 H2 F2. unfold copy_steps in H1, H2.
  assert (A1 : apart docs) by (eapply apart_app; exact Ha).
  assert (A2 : apart tgts).
  { intros i j t t' p Hi Hj Hp Hp'. assert (E : length docs + i = length docs + j); [|lia].
    apply (Ha (length docs + i) (length docs + j) t t' p); auto; rewrite nth_error_app2 by lia.
    - replace (length docs + i - length docs) with i by lia. exact Hi.
    - replace (length docs + j - length docs) with j by lia. exact Hj. }
  assert (S1 : sources_kept docs) by (intros t t' Ht Ht'; apply Hs; apply in_or_app; auto).
  assert (S2 : sources_kept tgts) by (intros t t' Ht Ht'; apply Hs; apply in_or_app; auto).
  assert (I : isolated None threads true) by (right; now left).
  assert (O1 : forall p, (forall t, In t docs -> ~ In p (paths t)) -> w_files w1 p = f p) by (intros p; eapply C43_others; eauto).
  assert (O2 : forall p, (forall t, In t tgts -> ~ In p (paths t)) -> w_files w2 p = w_files w1 p) by (intros p; eapply C43_others; eauto).
  assert (Src : forall t, In t tgts -> w_files w1 (tk_src t) = f (tk_src t)).
  { intros t Ht. apply O1. intros t' Ht'. apply Hs; apply in_or_app; auto. }
  assert (P1 : forall t, In t docs -> w_files w1 (tk_out t) = f (tk_src t)).
  { intros t Ht. apply In_nth_error in Ht as [i Hi]. destruct (C45_alone copy None docs threads true f A1 S1 k1 w1 i t I H1 F1 Hi) as (e & _ & _ & P).
    rewrite (P (tk_out t) (or_introl eq_refl)). destruct (Hf t) as [_ [c Hc]]; [apply in_or_app; left; eapply nth_error_In; exact Hi|].
    unfold auto_annotate, outcome_of. rewrite Hc. cbn. apply upd_same. }
  assert (P2 : forall t, In t tgts -> w_files w2 (tk_out t) = f (tk_src t)).
  { intros t Ht. pose proof Ht as Ht'. apply In_nth_error in Ht as [i Hi]. destruct (C45_alone copy None tgts threads true _ A2 S2 k2 w2 i t I H2 F2 Hi) as (e & _ & _ & P).
    rewrite (P (tk_out t) (or_introl eq_refl)). destruct (Hf t) as [_ [c Hc]]; [apply in_or_app; auto|].
    unfold auto_annotate, outcome_of. rewrite Src, Hc by assumption. cbn. apply upd_same. }
  split.
  { rewrite (C45_run copy None docs threads true f A1 S1 k1 w1 false I H1 F1). cbn [negb andb]. apply not_true_is_false. intros E.
    apply existsb_exists in E as (t & Ht & E). destruct (Hf t) as [_ [c Hc]]; [apply in_or_app; auto|]. unfold outcome_of in E. rewrite Hc in E. discriminate. }
  split.
  { rewrite (C45_run copy None tgts threads true _ A2 S2 k2 w2 false I H2 F2). cbn [negb andb]. apply not_true_is_false. intros E.
    apply existsb_exists in E as (t & Ht & E). destruct (Hf t) as [_ [c Hc]]; [apply in_or_app; auto|]. unfold outcome_of in E. rewrite Src, Hc in E by assumption. discriminate. }
  split.
  - intros t Ht. apply in_app_or in Ht as [Ht|Ht]; [|now apply P2]. rewrite O2; [now apply P1|]. intros t' Ht' Hp.
    apply In_nth_error in Ht as [i Hi]. apply In_nth_error in Ht' as [j Hj]. assert (Hl : i < length docs) by (apply nth_error_Some; congruence).
    assert (i = length docs + j); [|lia]. apply (Ha i (length docs + j) t t' (tk_out t)); [now rewrite nth_error_app1|rewrite nth_error_app2 by lia; now replace (length docs + j - length docs) with j by lia|now left|exact Hp].
  - intros p Hp. assert (N : forall t, In t (docs ++ tgts) -> ~ In p (paths t)).
    { intros t Ht [E|E]; [now apply (Hp t Ht)|]. destruct (Hf t Ht) as [E' _]. rewrite E' in E. destruct E. }
    rewrite O2, O1; auto; intros t Ht; apply N; apply in_or_app; auto.
Qed.
(** What is planned exists, if the absolute path of an absolute path is itself. *)
Theorem C46_exist f dc tc drows trows docs tgts :
  (forall b x, to_absolute b (to_absolute b x) = to_absolute b x) ->
  plan_copies f dc tc drows trows = Ok (docs, tgts) ->
  forall t, In t (docs ++ tgts) -> tk_failed t = None /\ exists c, f (tk_src t) = Some c.
Proof.
  intros Habs H t Ht. destruct (C46_pairs _ _ _ _ _ _ _ H) as (_ & L1 & L2 & _ & P).
  assert (Rd : forall base row, read_file base row = file_of base row) by (intros [[|x b]|] row; unfold read_file, file_of; auto).
  assert (Ex : forall k row, nth_error (good_rows f dc tc (combine drows trows)) k = Some row ->
     (exists c, f (read_file (cf_base dc) (fst row)) = Some c) /\ exists c, f (read_file (cf_base tc) (snd row)) = Some c).
  { intros k row Hk. apply nth_error_In in Hk. apply filter_In in Hk as [_ E]. apply andb_true_iff in E as [E1 E2]. unfold exists_file in E1, E2. rewrite !Rd.
    destruct (f (file_of (cf_base dc) (fst row))); [|discriminate]. destruct (f (file_of (cf_base tc) (snd row))); [|discriminate]. eauto. }
  apply in_app_or in Ht as [Ht|Ht]; apply In_nth_error in Ht as [k Hk].
  - destruct (nth_error (good_rows f dc tc (combine drows trows)) k) as [row|] eqn:E.
    + destruct (P k row E) as (d & t' & Hd & _ & (X1 & _ & X3 & _)). assert (d = t) as -> by congruence. rewrite X1. split; [exact X3|]. apply (Ex k row E).
    + apply nth_error_None in E. assert (k < length docs) by (apply nth_error_Some; congruence). lia.
  - destruct (nth_error (good_rows f dc tc (combine drows trows)) k) as [row|] eqn:E.
    + destruct (P k row E) as (d & t' & _ & Hd & (_ & X1 & _ & X3 & _)). assert (t' = t) as -> by congruence. rewrite X1. split; [exact X3|]. apply (Ex k row E).
    + apply nth_error_None in E. assert (k < length tgts) by (apply nth_error_Some; congruence). lia.
Qed.
(** All together: for every row with both files, the k-th outputs have the contents of the
    files of that row. *)
Theorem C46_download f dc tc drows trows docs tgts threads k1 w1 k2 w2 :
  (forall b x, to_absolute b (to_absolute b x) = to_absolute b x) ->
  plan_copies f dc tc drows trows = Ok (docs, tgts) ->
  NoDup (map tk_out (docs ++ tgts)) -> (forall t t', In t (docs ++ tgts) -> In t' (docs ++ tgts) -> tk_src t <> tk_out t') ->
  copy_steps docs threads k1 f w1 -> finished docs w1 -> copy_steps tgts threads k2 (w_files w1) w2 -> finished tgts w2 ->
  forall k row, nth_error (good_rows f dc tc (combine drows trows)) k = Some row ->
  exists d t, nth_error docs k = Some d /\ nth_error tgts k = Some t /\
    w_files w2 (tk_out d) = f (file_of (cf_base dc) (fst row)) /\ w_files w2 (tk_out t) = f (file_of (cf_base tc) (snd row)).
Proof.
  intros Habs H Hn Hs H1 F1 H2 F2 k row Hk. pose proof (C46_exist _ _ _ _ _ _ _ Habs H) as Ex.
  assert (Pt : forall t p, In t (docs ++ tgts) -> In p (paths t) -> p = tk_out t).
  { intros t p Ht [E|E]; [now symmetry|]. destruct (Ex t Ht) as [E' _]. rewrite E' in E. destruct E. }
  assert (A : apart (docs ++ tgts)).
  { intros i j t t' p Hi Hj Hp Hp'. apply Pt in Hp; [|eapply nth_error_In; exact Hi]. apply Pt in Hp'; [|eapply nth_error_In; exact Hj].
    apply (proj1 (NoDup_nth_error _) Hn); [rewrite map_length; apply nth_error_Some; congruence|]. rewrite !nth_error_map, Hi, Hj. cbn. congruence. }
  assert (K : sources_kept (docs ++ tgts)).
  { intros t t' Ht Ht' Hp. apply Pt in Hp; [|exact Ht']. now apply (Hs t t'). }
  destruct (C46_copies f docs tgts threads k1 w1 k2 w2 A K Ex H1 F1 H2 F2) as (_ & _ & C & _).
  destruct (C46_pairs _ _ _ _ _ _ _ H) as (_ & _ & _ & _ & P). destruct (P k row Hk) as (d & t & Hd & Ht & (X1 & X2 & _)).
  assert (Rd : forall base r, read_file base r = file_of base r) by (intros [[|x b]|] r; unfold read_file, file_of; auto).
  exists d, t. split; [exact Hd|]. split; [exact Ht|]. rewrite !C, X1, X2, !Rd; [auto| |]; apply in_or_app; [right|left]; eapply nth_error_In; eassumption.
Qed.
End Download.

(* ---------------------------------------------------------------- *)
(** ** C67: names *)
Lemma split_last_some c p a b : split_last c p = Some (a, b) -> p = a ++ b /\ exists b', b = c :: b' /\ ~ In c b'.
Proof.
  revert a b. induction p as [|x p IH]; intros a b; cbn [split_last]; [discriminate|].
  destruct (split_last c p) as [[a' b']|] eqn:E.
  - intros [= <- <-]. destruct (IH _ _ eq_refl) as [-> H]. auto.
  - destruct (N.eqb x c) eqn:Ex; [|discriminate]. intros [= <- <-]. apply N.eqb_eq in Ex as ->. split; [reflexivity|]. exists p. split; [reflexivity|].
    clear IH. revert E. induction p as [|y p IH]; cbn [split_last]; [auto|]. destruct (split_last c p) as [[? ?]|]; [discriminate|].
    destruct (N.eqb y c) eqn:Ey; [discriminate|]. intros _ [->|H]; [now rewrite N.eqb_refl in Ey|]. now apply IH.
Qed.
Lemma split_last_none c p : split_last c p = None -> ~ In c p.
Proof.
  induction p as [|y p IH]; cbn [split_last]; [auto|]. destruct (split_last c p) as [[? ?]|]; [discriminate|].
  destruct (N.eqb y c) eqn:Ey; [discriminate|]. intros _ [->|H]; [now rewrite N.eqb_refl in Ey|]. now apply IH.
Qed.
Lemma splitext_app p : fst (splitext p) ++ snd (splitext p) = p.
Proof.
  unfold splitext. destruct (split_last DOT p) as [[a b]|] eqn:E; [|cbn; apply app_nil_r]. apply split_last_some in E as [-> _].
  destruct (forallb _ a); cbn; [apply app_nil_r|reflexivity].
Qed.
(** name and extension are the file name, without .gz *)
Theorem C67_parts p : let q := filename_props p in
  p_filename q = basename p /\
  (p_filename q = p_name q ++ p_ext q \/ exists z, is_gz z = true /\ p_filename q = p_name q ++ p_ext q ++ z).
Proof.
  cbv zeta. unfold filename_props. pose proof (splitext_app (basename p)) as E. destruct (splitext (basename p)) as [name ext]. cbn [fst snd] in E.
  destruct (is_gz ext) eqn:Eg.
  - pose proof (splitext_app name) as E'. destruct (splitext name) as [n' e']. cbn [fst snd] in E'. cbn. split; [reflexivity|]. right. exists ext. split; [exact Eg|].
    now rewrite app_assoc, E', E.
  - cbn. split; [reflexivity|]. left. now rewrite E.
Qed.
(** a relative path without empty parts *)
Definition normal (p : str) : Prop := (forall q, p <> SLASH :: q) /\ forall a b, p <> a ++ SLASH :: SLASH :: b.
Theorem C67_path p : normal p -> p_dir (filename_props p) ++ p_filename (filename_props p) = p.
Proof.
  intros [H1 H2]. unfold filename_props. destruct (splitext (basename p)) as [name ext]. destruct (if is_gz ext then splitext name else (name, ext)) as [name' ext'].
  cbn [p_dir p_filename]. unfold dirname, basename. destruct (split_last SLASH p) as [[a b]|] eqn:E.
  - apply split_last_some in E as [-> (b' & -> & Hb)]. destruct a as [|x a]; [now destruct (H1 b')|].
    rewrite after_last_app, (after_last_none b' [] Hb). cbn [app].
    assert (Hx : x <> SLASH) by (intros ->; now apply (H1 (a ++ SLASH :: b'))).
    assert (forallb is_slash (x :: a ++ [SLASH]) = false) as ->.
    { cbn [forallb]. unfold is_slash at 1. apply N.eqb_neq in Hx. now rewrite Hx. }
    assert (R : rstrip_slash (x :: a ++ [SLASH]) = x :: a).
    { unfold rstrip_slash. change (x :: a ++ [SLASH]) with ((x :: a) ++ [SLASH]). rewrite rev_app_distr. cbn [rev app drop_while].
      unfold is_slash at 1. rewrite N.eqb_refl. change (rev a ++ [x]) with (rev (x :: a)).
      destruct (rev (x :: a)) as [|y r] eqn:Er; [apply (f_equal (@length N)) in Er; rewrite rev_length in Er; discriminate|].
      cbn [drop_while]. unfold is_slash. destruct (N.eqb y SLASH) eqn:Ey; [|now rewrite <- Er, rev_involutive].
      apply N.eqb_eq in Ey as ->. exfalso. apply (f_equal (@rev N)) in Er. rewrite rev_involutive in Er. cbn [rev] in Er.
      apply (H2 (rev r) b'). change (x :: a ++ SLASH :: b') with ((x :: a) ++ SLASH :: b'). now rewrite Er, <- app_assoc. }
    rewrite R. cbn [app]. now rewrite <- app_assoc.
  - cbn. apply split_last_none in E. now apply (after_last_none p []).
Qed.
(** With the pattern {dir}{filename} a file keeps its relative path; with the default
    pattern its file name. *)
Theorem C67_dir_filename special docs tgts i p d t : normal p -> nth_error docs i = Some d -> nth_error tgts i = Some t ->
  output_filename special docs tgts (u "{dir}{filename}"%string) i p = Ok p.
Proof.
  intros Hp Hd Ht. unfold output_filename. rewrite Hd, Ht. cbn [u parse_format]. 
  assert (parse_format None (u "{dir}{filename}"%string) = Ok [Field (u "dir"%string); Field (u "filename"%string)]) as -> by (vm_compute; reflexivity).
  cbn [bind eval_parts]. 
  set (c := mkContext i _ _ _).
  assert (eval_field special c (u "dir"%string) = Ok (p_dir (filename_props p))) as -> by reflexivity.
  assert (eval_field special c (u "filename"%string) = Ok (p_filename (filename_props p))) as -> by reflexivity.
  cbn [bind]. rewrite app_nil_r. now rewrite C67_path.
Qed.
Theorem C67_default special docs tgts i p d t : nth_error docs i = Some d -> nth_error tgts i = Some t ->
  output_filename special docs tgts (u "{filename}"%string) i p = Ok (basename p).
Proof.
  intros Hd Ht. unfold output_filename. rewrite Hd, Ht.
  assert (parse_format None (u "{filename}"%string) = Ok [Field (u "filename"%string)]) as -> by (vm_compute; reflexivity).
  cbn [bind eval_parts]. set (c := mkContext i _ _ _).
  assert (eval_field special c (u "filename"%string) = Ok (p_filename (filename_props p))) as -> by reflexivity.
  cbn [bind]. rewrite app_nil_r. now rewrite (proj1 (C67_parts p)).
Qed.
(** Any text, with its braces doubled, is a pattern for the same file name for all rows. *)
Definition doubled (s : str) : str := flat_map (fun c => if N.eqb c OPEN || N.eqb c CLOSE then [c; c] else [c]) s.
Theorem C67_braces special docs tgts i p d t s : nth_error docs i = Some d -> nth_error tgts i = Some t ->
  output_filename special docs tgts (doubled s) i p = Ok s.
Proof.
  intros Hd Ht. unfold output_filename. rewrite Hd, Ht. set (c := mkContext i _ _ _).
  assert (E : parse_format None (doubled s) = Ok (map Lit s)).
  { clear. unfold doubled. induction s as [|x s IH]; [reflexivity|]. cbn [flat_map map]. destruct (N.eqb x OPEN) eqn:E1; [|destruct (N.eqb x CLOSE) eqn:E2]; cbn [orb app parse_format].
    - rewrite !E1, IH. cbn. apply N.eqb_eq in E1 as ->. reflexivity.
    - rewrite E1, !E2, IH. cbn. apply N.eqb_eq in E2 as ->. reflexivity.
    - rewrite E1, E2, IH. reflexivity. }
  rewrite E. cbn [bind]. clear. induction s as [|x s IH]; [reflexivity|]. cbn [map eval_parts]. now rewrite IH.
Qed.
(** A target named after its document. *)
Theorem C67_document special docs tgts i p d t ext :
  nth_error docs i = Some d -> nth_error tgts i = Some t -> ~ In OPEN ext -> ~ In CLOSE ext ->
  output_filename special docs tgts (u "{document.name}"%string ++ ext) i p = Ok (p_name (filename_props d) ++ ext).
Proof.
  intros Hd Ht H1 H2. unfold output_filename. rewrite Hd, Ht.
  assert (L : parse_format None ext = Ok (map Lit ext)).
  { clear - H1 H2. induction ext as [|x ext IH]; [reflexivity|]. cbn [parse_format map].
    assert (N.eqb x OPEN = false) as -> by (apply N.eqb_neq; intros ->; apply H1; now left).
    assert (N.eqb x CLOSE = false) as -> by (apply N.eqb_neq; intros ->; apply H2; now left).
    rewrite IH; [reflexivity|intros H; apply H1; now right|intros H; apply H2; now right]. }
  assert (P : parse_format None (u "{document.name}"%string ++ ext) = Ok (Field (u "document.name"%string) :: map Lit ext)).
  { cbn. rewrite L. reflexivity. }
  rewrite P. cbn [bind eval_parts]. set (c := mkContext i _ _ _).
  assert (eval_field special c (u "document.name"%string) = Ok (p_name (filename_props d))) as -> by reflexivity.
  assert (eval_parts special c (map Lit ext) = Ok ext) as ->; [|reflexivity].
  clear. induction ext as [|x ext IH]; [reflexivity|]. cbn [map eval_parts]. now rewrite IH.
Qed.

(* ---------------------------------------------------------------- *)
(** ** Examples *)
Definition ex_special (name : str) (c : context) : res str := Err KeyError.
Definition ex_absolute (b x : str) : str := match x with y :: _ => if N.eqb y SLASH then x else join_path b x | [] => join_path b x end.
Definition ex_relative (b x : str) : str := if starts_with (as_dir b) x then skipn (length (as_dir b)) x else x.
Definition ex_disk : files := fun p =>
  if streq p (u "/d/x/1.pdf.gz"%string) then Some (u "one"%string)
  else if streq p (u "/d/x/2.pdf"%string) then Some (u "two"%string)
  else if streq p (u "/d/x/3.pdf"%string) then Some (u "three"%string)
  else if streq p (u "/t/x/1.xml"%string) then Some (u "uno"%string)
  else if streq p (u "/t/x/3.xml"%string) then Some (u "tre"%string) else None.
Definition ex_doc := mkConfig (Some (u "/d"%string)) (u "/out/docs"%string) (u "{index}-{name}{ext}"%string).
Definition ex_target := mkConfig (Some (u "/t"%string)) (u "/out/xml"%string) (u "{document.name}.tei.xml"%string).
Example C46_example :
  plan_copies ex_special ex_relative ex_absolute ex_disk ex_doc ex_target
    [u "x/1.pdf.gz"; u "x/2.pdf"; u "x/3.pdf"]%string [u "x/1.xml"; u "x/2.xml"; u "x/3.xml"]%string =
  Ok ([mkTask (u "/d/x/1.pdf.gz") (u "/out/docs/0-1.pdf") None; mkTask (u "/d/x/3.pdf") (u "/out/docs/1-3.pdf") None],
      [mkTask (u "/t/x/1.xml") (u "/out/xml/1.tei.xml") None; mkTask (u "/t/x/3.xml") (u "/out/xml/3.tei.xml") None])%string.
Proof. vm_compute. reflexivity. Qed.
Example C46_short : plan_copies ex_special ex_relative ex_absolute ex_disk ex_doc ex_target [u "x/1.pdf.gz"]%string [] = Err AssertionError.
Proof. vm_compute. reflexivity. Qed.
Example C46_none : plan_copies ex_special ex_relative ex_absolute ex_disk ex_doc ex_target [u "x/2.pdf"]%string [u "x/2.xml"]%string = Err ValueError.
Proof. vm_compute. reflexivity. Qed.
Example C46_unknown : plan_copies ex_special ex_relative ex_absolute ex_disk (mkConfig (Some (u "/d"%string)) (u "/out"%string) (u "{nme}"%string)) ex_target
  [u "x/1.pdf.gz"]%string [u "x/1.xml"]%string = Err KeyError.
Proof. vm_compute. reflexivity. Qed.
(** the copies by two threads *)
Definition ex_docs : list task := [mkTask (u "/d/x/1.pdf.gz") (u "/out/docs/0-1.pdf") None; mkTask (u "/d/x/3.pdf") (u "/out/docs/1-3.pdf") None]%string.
Example C46_copied : option_map (fun w => (map (w_files w) [u "/out/docs/0-1.pdf"; u "/out/docs/1-3.pdf"]%string, map (w_place w) [0; 1]))
  (exec copy None ex_docs 2 true (initial ex_docs ex_disk) [0; 0; 1; 2; 1; 2; 1; 2; 1; 2; 1; 2; 1; 2; 1; 2; 1; 2; 2; 2]) =
  Some ([Some (u "one"); Some (u "three")]%string, [Done false; Done false]).
Proof. vm_compute. reflexivity. Qed.
Example C67_example :
  map filename_props [u "a/b/c.tar.GZ"; u ".gz"; u "x/.hidden"; u "plain.pdf"]%string =
  [mkProps (u "a/b/") (u "c.tar.GZ") (u "c") (u ".tar"); mkProps [] (u ".gz") (u ".gz") []; mkProps (u "x/") (u ".hidden") (u ".hidden") []; mkProps [] (u "plain.pdf") (u "plain") (u ".pdf")]%string.
Proof. vm_compute. reflexivity. Qed.
(** the condition of C67_path is needed *)
Example C67_double : p_dir (filename_props (u "a//b"%string)) = u "a/"%string /\ p_dir (filename_props (u "/b"%string)) = u "//"%string.
Proof. split; vm_compute; reflexivity. Qed.

Example C67_ex_braces : doubled (u "a{0}.xml"%string) = u "a{{0}}.xml"%string.
Proof. reflexivity. Qed.
Print Assumptions C67_braces.
Print Assumptions C46_pairs.
Print Assumptions C46_errors.
Print Assumptions C46_copies.
Print Assumptions C46_exist.
Print Assumptions C46_download.
Print Assumptions C67_parts.
Print Assumptions C67_path.
Print Assumptions C67_dir_filename.
Print Assumptions C67_default.
Print Assumptions C67_document.
