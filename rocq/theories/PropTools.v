(** C109, C110, C111: the two other tools as programs. *)
From Coq Require Import QArith.
From Verif Require Import Base ModelMapping ModelJoined ModelLineNumbers ModelPipeline PropPipeline ModelDownload PropDownload ModelTarget ModelJats ModelFixJats PropFixJats ModelArgs PropArgs ModelTools.
Open Scope string_scope.
Open Scope list_scope.
Open Scope nat_scope.

(* ---------------------------------------------------------------- *)
(** ** Options of any list of declarations *)
Lemma sets_gives occ n v : sets occ n v -> gives occ n.
Proof. intros (p & q & -> & _). unfold gives. rewrite map_app, in_app_iff. right. now left. Qed.
Section Options.
Variable dg : N -> bool.
Variable ds : list decl.
Hypothesis WD : well_declared ds.
Variable argv : list str.
Variable occ : occurrences.
Hypothesis HR : PropArgs.reads dg ds argv occ.
Lemma occ_declared n o : In (n, o) occ -> (declared ds n KFlag /\ o = None) \/ exists ok v, declared ds n (KValue ok) /\ o = Some v /\ ok v = true.
Proof.
  revert n o. induction HR as [|s n ws occ H1 H2 H3 IH|s n ok v ws occ H1 H2 H3 H4 H5 IH|s n ok v ws occ H1 H2 H3 H4 H5 IH]; intros m o Hm; [easy| | |]; destruct Hm as [E|Hm]; try (now apply IH); injection E as <- <-.
  - left. now split.
  - right. now exists ok, v.
  - right. now exists ok, v.
Qed.
Lemma kind_unique n k k' : declared ds n k -> declared ds n k' -> k = k'.
Proof. intros (d & H1 & H2 & <-) (d' & H3 & H4 & <-). f_equal. apply (decl_unique _ WD); congruence. Qed.
Lemma option_cases n ok : declared ds (u n) (KValue ok) ->
  (last_value n occ = None /\ ~ gives occ n) \/ exists v, last_value n occ = Some v /\ sets occ n v /\ ok v = true.
Proof.
  intros K. assert (Hv : forall o, In (u n, o) occ -> exists v, o = Some v /\ ok v = true).
  { intros o Ho. destruct (occ_declared _ _ Ho) as [[D _]|(ok' & v & D & -> & Hok)]; pose proof (kind_unique _ _ _ D K) as E; [discriminate|]. injection E as ->. now exists v. }
  destruct (last_value n occ) as [v|] eqn:E.
  - right. exists v. split; [reflexivity|]. pose proof (proj1 (last_value_sets _ _ _) E) as S. split; [exact S|]. destruct S as (p & q & -> & _).
    destruct (Hv (Some v)) as (w & [= ->] & W); [apply in_or_app; right; now left|exact W].
  - left. split; [reflexivity|]. apply last_value_none; [|exact E]. intros o Ho ->. destruct (Hv None Ho) as (v & Q & _). discriminate.
Qed.
Lemma option_text n d ok x : declared ds (u n) (KValue ok) -> chosen occ n d itself x <-> x = value_or n d occ.
Proof.
  intros K. unfold value_or. destruct (option_cases n _ K) as [[E G]|(v & E & S & _)]; rewrite E.
  - split; [|intros ->; now constructor]. intros [_|v y S _]; [reflexivity|]. apply last_value_sets in S. congruence.
  - split; [|intros ->; now apply chosen_value with v]. intros [G|v' y S' Hx]; [|apply last_value_sets in S'; unfold itself in Hx; congruence].
    exfalso. apply G. now apply (sets_gives _ _ v).
Qed.
Lemma option_none n ok x : declared ds (u n) (KValue ok) -> chosen occ n None (fun v x => x = Some v) x <-> x = last_value n occ.
Proof.
  intros K. destruct (option_cases n _ K) as [[E G]|(v & E & S & _)]; rewrite E.
  - split; [|intros ->; now constructor]. intros [_|v y S _]; [reflexivity|]. apply last_value_sets in S. congruence.
  - split; [|intros ->; now apply chosen_value with v]. intros [G|v' y S' Hx]; [|apply last_value_sets in S'; congruence]. exfalso. apply G. now apply (sets_gives _ _ v).
Qed.
Lemma option_required n ok x : declared ds (u n) (KValue ok) -> gives occ n -> sets occ n x <-> x = value_or n [] occ.
Proof.
  intros K Hg. unfold value_or. destruct (option_cases n _ K) as [[E G]|(v & E & S & _)]; [contradiction|]. rewrite E. rewrite <- last_value_sets, E. split; [now intros [= ->]|now intros ->].
Qed.
End Options.
Lemma nonempty_some n occ v : sets occ n v /\ v <> [] <-> last_value n occ = Some v /\ v <> [].
Proof. now rewrite last_value_sets. Qed.
(** what is below applies to a declaration in the list *)
Lemma declared_in (ds : list decl) d k : In d ds -> dc_kind d = k -> declared ds (dc_name d) k.
Proof. intros H1 H2. now exists d. Qed.

(** runs come to an end *)
Lemma can_finish process fixed (tasks : list task) workers shared f : apart tasks -> sources_kept tasks -> 0 < workers ->
  exists k w, ModelPipeline.steps process fixed tasks workers shared k (initial tasks f) w /\ finished tasks w.
Proof.
  intros A1 A2 A3.
  assert (B : exists n, forall k w, ModelPipeline.steps process fixed tasks workers shared k (initial tasks f) w -> k <= n /\ (finished tasks w \/ exists w', ModelPipeline.steps process fixed tasks workers shared (S k) (initial tasks f) w')).
  { eexists. intros k w Hk. split; [eapply C43_ends; eassumption|]. destruct (C43_progress _ _ _ _ _ _ A1 A2 k w A3 Hk) as [Hf|[w' Hw]]; [now left|]. right. exists w'. econstructor; eassumption. }
  destruct B as [n Hn].
  assert (G : forall d k w, n - k <= d -> ModelPipeline.steps process fixed tasks workers shared k (initial tasks f) w -> exists k' w', ModelPipeline.steps process fixed tasks workers shared k' (initial tasks f) w' /\ finished tasks w').
  { induction d as [|d IH]; intros k w Hd Hk; destruct (Hn k w Hk) as [H1 [H2|[w' H2]]]; eauto.
    - destruct (Hn _ _ H2) as [H3 _]. lia.
    - apply (IH (S k) w'); [lia|exact H2]. }
  apply (G n 0 (initial tasks f)); [lia|constructor].
Qed.
Lemma apart_tail l l' : apart (l ++ l') -> apart l'.
Proof.
  intros H i j s s' p Hi Hj Hp Hp'. assert (E : length l + i = length l + j); [|lia]. apply (H (length l + i) (length l + j) s s' p); auto; rewrite nth_error_app2 by lia.
  - replace (length l + i - length l) with i by lia. exact Hi.
  - replace (length l + j - length l) with j by lia. exact Hj.
Qed.
(** directories are determined *)
Lemma split_last_app c p q : ~ In c q -> split_last c (p ++ c :: q) = Some (p, c :: q).
Proof.
  intros Hq. induction p as [|x p IH]; cbn [app split_last]; [|now rewrite IH]. rewrite (proj2 (PropFixJats.split_last_none c q) Hq). now rewrite N.eqb_refl.
Qed.
Lemma repeat_snoc {A} (x : A) n : repeat x (S n) = repeat x n ++ [x].
Proof. induction n as [|n IH]; [reflexivity|]. cbn [repeat app] in *. now rewrite <- IH. Qed.
Lemma all_slashes n : forallb is_slash (repeat SLASH n) = true.
Proof. induction n as [|n IH]; [reflexivity|]. cbn [repeat forallb]. now rewrite IH. Qed.
Lemma drop_slashes n s : drop_while is_slash (repeat SLASH n ++ s) = drop_while is_slash s.
Proof. induction n as [|n IH]; [reflexivity|]. exact IH. Qed.
Lemma rev_repeat {A} (x : A) n : rev (repeat x n) = repeat x n.
Proof. induction n as [|n IH]; [reflexivity|]. cbn [repeat rev]. rewrite IH. symmetry. apply (repeat_snoc x n). Qed.
Lemma dir_of_spec p d : dir_of p d <-> d = dirname p.
Proof.
  split; [|intros ->; apply dirname_dir]. intros [q Hq|k name Hn|e x k name Hx Hn].
  - symmetry. now apply dirname_nil.
  - rewrite repeat_snoc, <- app_assoc. cbn [app]. unfold dirname. rewrite (split_last_app _ _ _ Hn). cbv zeta. rewrite <- repeat_snoc, all_slashes. reflexivity.
  - rewrite repeat_snoc, <- (app_assoc (repeat SLASH k)). cbn [app]. rewrite app_assoc. unfold dirname. rewrite (split_last_app _ _ _ Hn). cbv zeta. rewrite <- (app_assoc (e ++ [x])), <- repeat_snoc.
    assert (F : forallb is_slash ((e ++ [x]) ++ repeat SLASH (S k)) = false).
    { rewrite !forallb_app. cbn [forallb]. unfold is_slash at 2. rewrite (proj2 (N.eqb_neq _ _) Hx). cbn [andb]. now rewrite andb_false_r. }
    rewrite F. unfold rstrip_slash. rewrite rev_app_distr, rev_repeat, drop_slashes, rev_app_distr. cbn [rev app drop_while]. unfold is_slash at 1. rewrite (proj2 (N.eqb_neq _ _) Hx).
    cbn [rev]. now rewrite rev_involutive.
Qed.

Section Tools.
Variable t : tool_libs.
Let a := tl_args t.
Hypothesis Hdg : ag_dg a 10%N = false /\ ag_dg a ch_dot = false.
Definition number_text (v : str) (x : option Z) : Prop := exists z, ag_int a v = Some z /\ x = Some z.

(* ---------------------------------------------------------------- *)
(** ** Specification: what the command line of fix_jats_xml asks for *)
(** the base directory: given; or that of the list, if it has one; or that of the source *)
Inductive fix_base (occ : occurrences) : str -> Prop :=
| fix_base_given b : sets occ "--source-base-path" b -> b <> [] -> fix_base occ b
| fix_base_list l d : (forall b, sets occ "--source-base-path" b -> b = []) -> sets occ "--source-file-list" l -> In SLASH l -> dir_of l d -> fix_base occ d
| fix_base_path p d : (forall b, sets occ "--source-base-path" b -> b = []) -> (forall l, sets occ "--source-file-list" l -> ~ In SLASH l) ->
    sets occ "--source-path" p -> dir_of p d -> fix_base occ d.
(** the sources: those of the list; or the one that is named; or those that are found *)
Inductive fix_sources (f : files) (occ : occurrences) (base : str) : list str -> Prop :=
| fix_sources_list path column limit rows : sets occ "--source-file-list" path -> path <> [] ->
    chosen occ "--source-file-list-column" (u "xml_url") itself column -> chosen occ "--limit" None number_text limit ->
    tl_list t path column limit f = Some rows -> fix_sources f occ base rows
| fix_sources_one p : (forall l, sets occ "--source-file-list" l -> l = []) -> sets occ "--source-path" p -> p <> [] -> fix_sources f occ base [p]
| fix_sources_found pattern limit : (forall l, sets occ "--source-file-list" l -> l = []) -> (forall p, sets occ "--source-path" p -> p = []) ->
    chosen occ "--source-filename-pattern" (u "**.xml*") itself pattern -> chosen occ "--limit" None number_text limit ->
    fix_sources f occ base (tl_find t (join_path base pattern) limit f).
(** the command line, the base directory and the list of files can be read *)
Record fix_ready (argv : list str) (f : files) (occ : occurrences) (cl : cloud) (base : str) (srcs : list str) : Prop := {
  fr_line : PropArgs.reads (ag_dg a) (fix_decls t) argv occ;
  fr_complete : complete (fix_decls t) occ;
  fr_cloud : ag_process_cloud a occ = Some cl;
  fr_base : fix_base occ base;
  fr_sources : fix_sources f occ base srcs }.
Inductive fix_starts (argv : list str) (f : files) : fix_started -> Prop :=
| fix_starts_stops : (forall occ cl base srcs, ~ fix_ready argv f occ cl base srcs) -> fix_starts argv f FixStops
| fix_starts_idle occ cl base srcs : fix_ready argv f occ cl base srcs -> srcs <> [] -> (cl_workers cl < 1)%Z -> fix_starts argv f FixStops
| fix_starts_nothing occ cl base : fix_ready argv f occ cl base [] -> fix_starts argv f FixNothing
| fix_starts_runs occ cl base srcs output workers multi : fix_ready argv f occ cl base srcs -> srcs <> [] -> (1 <= cl_workers cl)%Z ->
    sets occ "--output-path" output -> workers = Nat.min (Z.to_nat (cl_workers cl)) (length srcs) -> (multi = true <-> gives occ "--multi-processing") ->
    fix_starts argv f (FixRuns output base srcs workers multi).

(* ---------------------------------------------------------------- *)
(** ** Proofs *)
Definition fix_names : list str := map dc_name (help_decls ++ fix_own_decls t ++ [debug_decl]).
(** what is assumed of the options for running in the cloud: long names, no two the same, none of them one of the others, none required *)
Definition fix_cloud_fresh : Prop :=
  NoDup (map dc_name (ag_cloud a)) /\
  forall d, In d (ag_cloud a) -> ~ In (dc_name d) fix_names /\ begins hyphens (dc_name d) /\ dc_name d <> hyphens /\ ~ In ch_eq (dc_name d) /\ dc_required d = false.
Lemma in_fix d : In d (fix_decls t) <-> In d (help_decls ++ fix_own_decls t ++ [debug_decl]) \/ In d (ag_cloud a).
Proof. unfold fix_decls. rewrite !in_app_iff. fold a. tauto. Qed.
Theorem C109_declared : fix_cloud_fresh -> well_declared (fix_decls t).
Proof.
  intros [Hn Hc]. assert (D : NoDup fix_names) by (unfold fix_names; apply distinct_NoDup; vm_compute; reflexivity). repeat split.
  - apply (Permutation.Permutation_NoDup (l := fix_names ++ map dc_name (ag_cloud a))).
    + unfold fix_names, fix_decls. rewrite !map_app, <- !app_assoc. fold a. apply Permutation.Permutation_app_head. apply Permutation.Permutation_app_head. apply Permutation.Permutation_app_comm.
    + apply NoDup_two; auto. intros x Hx. apply in_map_iff in Hx as (d & <- & Hd). now apply Hc.
  - exists (mkDecl (u "-h") KHelp false). split; [now left|reflexivity].
  - exists (u "--help"), (u "--debug"). split; [discriminate|]. split; [exists (mkDecl (u "--help") KHelp false); split; [right; now left|reflexivity]|].
    split; [exists debug_decl; split; [|reflexivity]; apply in_fix; left; rewrite !in_app_iff; right; right; now left|]. split; [now exists (u "help")|now exists (u "debug")].
  - intros d Hd. apply in_fix in Hd as [Hd|Hd]; [|right; destruct (Hc d Hd) as (_ & H1 & H2 & H3 & _); auto].
    assert (F : forallb (fun d => match dc_kind d with KHelp => streq (dc_name d) (u "-h") || long_ok (dc_name d) | _ => long_ok (dc_name d) end) (help_decls ++ fix_own_decls t ++ [debug_decl]) = true) by (vm_compute; reflexivity).
    rewrite forallb_forall in F. specialize (F d Hd). cbv beta in F. destruct (dc_kind d) eqn:Ek; [|right; now apply long_ok_spec|right; now apply long_ok_spec].
    apply orb_true_iff in F as [F|F]; [left; split; [now apply streq_true|reflexivity]|right; now apply long_ok_spec].
Qed.
(** the two switches: they take no value *)
Theorem C109_switches : declared (fix_decls t) (u "--multi-processing") KFlag /\ declared (fix_decls t) (u "--no-log-file") KFlag.
Proof.
  split; [exists (ModelArgs.flag "--multi-processing")|exists (ModelArgs.flag "--no-log-file")]; (split; [|split; reflexivity]); apply in_fix; left; rewrite !in_app_iff; right; left; unfold fix_own_decls; cbn [In]; tauto.
Qed.

Section Fix.
Hypothesis fresh : fix_cloud_fresh.
Lemma fix_line argv occ : parse_argv (ag_dg a) (fix_decls t) argv = Some occ <-> PropArgs.reads (ag_dg a) (fix_decls t) argv occ /\ complete (fix_decls t) occ.
Proof. apply C95_parse; [now apply C109_declared|exact Hdg]. Qed.
Lemma fix_declared d k : In d (fix_own_decls t) -> dc_kind d = k -> declared (fix_decls t) (dc_name d) k.
Proof. intros H1 H2. apply declared_in; [|exact H2]. apply in_fix. left. rewrite !in_app_iff. auto. Qed.
Lemma fix_text n : In (text n) (fix_own_decls t) -> declared (fix_decls t) (u n) (KValue (fun _ => true)).
Proof. intros H. apply (fix_declared (text n)); [exact H|reflexivity]. Qed.
Lemma fix_number n : In (number a n) (fix_own_decls t) -> declared (fix_decls t) (u n) (KValue (fun v => is_some (ag_int a v))).
Proof. intros H. apply (fix_declared (number a n)); [exact H|reflexivity]. Qed.
Lemma number_spec ds argv occ n x : well_declared ds -> PropArgs.reads (ag_dg a) ds argv occ -> declared ds (u n) (KValue (fun v => is_some (ag_int a v))) ->
  chosen occ n None number_text x <-> x = opt_int t n occ.
Proof.
  intros WD HR K. unfold opt_int. fold a. destruct (option_cases _ _ WD argv occ HR n _ K) as [[E G]|(v & E & S & Hok)]; rewrite E.
  - split; [|intros ->; now constructor]. intros [_|v y S _]; [reflexivity|]. apply last_value_sets in S. congruence.
  - destruct (ag_int a v) as [z|] eqn:Ez; [|discriminate]. split; [|intros ->; apply chosen_value with v; [exact S|now exists z]].
    intros [G|v' y S' (z' & Hz & ->)]; [|apply last_value_sets in S'; congruence]. exfalso. apply G. now apply (sets_gives _ _ v).
Qed.
Lemma empty_spec n occ : (forall b, sets occ n b -> b = []) <-> truthy (last_value n occ) = false.
Proof.
  split.
  - intros H. destruct (last_value n occ) as [[|x b]|] eqn:E; [reflexivity| |reflexivity]. apply last_value_sets in E. specialize (H _ E). discriminate.
  - intros H b Hb. apply last_value_sets in Hb. rewrite Hb in H. now destruct b.
Qed.
Lemma fix_base_spec occ base : fix_base occ base <-> source_base (last_value "--source-base-path" occ) (last_value "--source-file-list" occ) (last_value "--source-path" occ) = Ok base.
Proof.
  assert (D : forall l d, dir_of l d -> In SLASH l -> exists x y, d = x :: y).
  { intros l d H Hi. apply dir_of_spec in H. subst d. destruct (dirname l) as [|x y] eqn:E; [now apply dirname_nil in E|now exists x, y]. }
  split.
  - intros [b S Hb|l d H S Hi Hd|p d H Hl S Hd].
    + apply last_value_sets in S. rewrite S. now destruct b.
    + apply empty_spec in H. unfold source_base. rewrite H. apply last_value_sets in S. rewrite S. cbv zeta. destruct l as [|y l]; [easy|].
      destruct (D _ _ Hd Hi) as (z & r & E). apply dir_of_spec in Hd. rewrite <- Hd, E. reflexivity.
    + apply empty_spec in H. unfold source_base. rewrite H. apply last_value_sets in S. rewrite S. cbv zeta.
      assert (E : match last_value "--source-file-list" occ with Some ((_ :: _) as l) => dirname l | _ => [] end = []).
      { destruct (last_value "--source-file-list" occ) as [[|y l]|] eqn:E; try reflexivity. apply dirname_nil. apply Hl. now apply last_value_sets. }
      rewrite E. apply dir_of_spec in Hd. now subst d.
  - intros H. apply C94_base in H as [[H1 H2]|[H1 H2]].
    + apply fix_base_given; [now apply last_value_sets|exact H2].
    + assert (Nb : forall b, sets occ "--source-base-path" b -> b = []) by (apply empty_spec; destruct H1 as [-> | ->]; reflexivity).
      destruct H2 as [(l & E & Hi & Hd)|[Hl (p & E & Hd)]].
      * apply fix_base_list with l; auto. now apply last_value_sets.
      * apply fix_base_path with p; auto; [|now apply last_value_sets]. intros l Hs. apply Hl. now apply last_value_sets.
Qed.
Section Parsed.
Variable argv : list str.
Variable occ : occurrences.
Hypothesis HR : PropArgs.reads (ag_dg a) (fix_decls t) argv occ.
Hypothesis HC : complete (fix_decls t) occ.
Let WD := C109_declared fresh.
Ltac own := unfold fix_own_decls; cbn [In]; tauto.
Lemma fix_sources_spec f base l : fix_sources f occ base l <-> fix_sources_of t occ base f = Some l.
Proof.
  assert (C1 : forall x, chosen occ "--source-file-list-column" (u "xml_url") itself x <-> x = value_or "--source-file-list-column" (u "xml_url") occ) by (intros x; apply (option_text _ _ WD argv occ HR _ _ (fun _ => true)); apply fix_text; own).
  assert (C2 : forall x, chosen occ "--source-filename-pattern" (u "**.xml*") itself x <-> x = value_or "--source-filename-pattern" (u "**.xml*") occ) by (intros x; apply (option_text _ _ WD argv occ HR _ _ (fun _ => true)); apply fix_text; own).
  assert (C3 : forall x, chosen occ "--limit" None number_text x <-> x = opt_int t "--limit" occ) by (intros x; apply (number_spec _ _ _ _ _ WD HR); apply fix_number; own).
  unfold fix_sources_of. cbv zeta. split.
  - intros [path column limit rows S Hp H1 H2 H3|p H S Hp|pattern limit H H' H1 H2].
    + apply C1 in H1. apply C3 in H2. subst column limit. apply last_value_sets in S. rewrite S. destruct path as [|x path]; [easy|]. cbn [truthy otext]. rewrite H3. reflexivity.
    + apply empty_spec in H. rewrite H. unfold source_files. rewrite H. apply last_value_sets in S. rewrite S. now destruct p.
    + apply C2 in H1. apply C3 in H2. subst pattern limit. apply empty_spec in H. apply empty_spec in H'. rewrite H. unfold source_files. now rewrite H, H'.
  - destruct (last_value "--source-file-list" occ) as [[|x path]|] eqn:E.
    2:{ cbn [truthy otext]. destruct (tl_list t (x :: path) _ _ f) as [rows|] eqn:El; [|discriminate]. unfold source_files. cbn [truthy]. intros [= <-].
        eapply fix_sources_list; [apply last_value_sets; exact E|discriminate|now apply C1|now apply C3|exact El]. }
    all: cbn [truthy]; unfold source_files; cbn [truthy]; intros [= <-].
    all: assert (Nl : forall l, sets occ "--source-file-list" l -> l = []) by (apply empty_spec; now rewrite E).
    all: destruct (last_value "--source-path" occ) as [[|y p]|] eqn:Ep; cbn [truthy otext];
      [apply fix_sources_found; [exact Nl|apply empty_spec; now rewrite Ep|now apply C2|now apply C3]|apply fix_sources_one; [exact Nl|now apply last_value_sets|discriminate]
      |apply fix_sources_found; [exact Nl|apply empty_spec; now rewrite Ep|now apply C2|now apply C3]].
Qed.
Lemma fix_output_spec out : sets occ "--output-path" out <-> out = value_or "--output-path" [] occ.
Proof.
  apply (option_required _ _ WD argv occ HR _ (fun _ => true)); [apply (fix_declared (required "--output-path")); [own|reflexivity]|].
  apply (HC (required "--output-path")); [|reflexivity]. apply in_fix. left. rewrite !in_app_iff. right. left. own.
Qed.
End Parsed.
Lemma fix_ready_spec argv f occ cl base srcs : fix_ready argv f occ cl base srcs <->
  parse_argv (ag_dg a) (fix_decls t) argv = Some occ /\ ag_process_cloud a occ = Some cl /\
  source_base (last_value "--source-base-path" occ) (last_value "--source-file-list" occ) (last_value "--source-path" occ) = Ok base /\
  fix_sources_of t occ base f = Some srcs.
Proof.
  split.
  - intros [H1 H2 H3 H4 H5]. split; [now apply fix_line|]. split; [exact H3|]. split; [now apply fix_base_spec|]. now apply (fix_sources_spec argv occ H1).
  - intros (H1 & H3 & H4 & H5). apply fix_line in H1 as [H1 H2]. constructor; auto; [now apply fix_base_spec|]. now apply (fix_sources_spec argv occ H1).
Qed.
(** What fix_jats_xml does with its command line: it stops, or there is nothing to do, or it
    fixes the sources that the command line asks for. *)
Theorem C109_start argv f r : fix_start t argv f = r <-> fix_starts argv f r.
Proof.
  assert (Stop : (forall occ cl base srcs, ~ fix_ready argv f occ cl base srcs) -> fix_start t argv f = FixStops).
  { intros H. unfold fix_start. fold a. destruct (parse_argv (ag_dg a) (fix_decls t) argv) as [occ|] eqn:E1; [|reflexivity].
    destruct (ag_process_cloud a occ) as [cl|] eqn:E2; [|reflexivity]. destruct (source_base _ _ _) as [base|] eqn:E3; [|reflexivity].
    destruct (fix_sources_of t occ base f) as [srcs|] eqn:E4; [|reflexivity]. exfalso. apply (H occ cl base srcs). apply fix_ready_spec. auto. }
  assert (Go : forall occ cl base srcs, fix_ready argv f occ cl base srcs -> fix_start t argv f =
     match srcs with [] => FixNothing | _ => if (cl_workers cl <? 1)%Z then FixStops
       else FixRuns (value_or "--output-path" [] occ) base srcs (worker_count (Z.to_nat (cl_workers cl)) srcs) (has_flag "--multi-processing" occ) end).
  { intros occ cl base srcs H. apply fix_ready_spec in H as (H1 & H2 & H3 & H4). unfold fix_start. fold a. rewrite H1, H2, H3, H4. now destruct srcs. }
  split.
  - intros <-. unfold fix_start. fold a. destruct (parse_argv (ag_dg a) (fix_decls t) argv) as [occ|] eqn:E1;
      [|apply fix_starts_stops; intros occ cl base srcs H; apply fix_ready_spec in H as (H & _); congruence].
    destruct (ag_process_cloud a occ) as [cl|] eqn:E2; [|apply fix_starts_stops; intros occ' cl base srcs H; apply fix_ready_spec in H as (H & H' & _); congruence].
    destruct (source_base _ _ _) as [base|] eqn:E3; [|apply fix_starts_stops; intros occ' cl' base srcs H; apply fix_ready_spec in H as (H & _ & H' & _); congruence].
    destruct (fix_sources_of t occ base f) as [srcs|] eqn:E4; [|apply fix_starts_stops; intros occ' cl' base' srcs H; apply fix_ready_spec in H as (H & _ & H3 & H'); congruence].
    assert (R : fix_ready argv f occ cl base srcs) by (apply fix_ready_spec; auto). destruct srcs as [|s srcs]; [now apply fix_starts_nothing with occ cl base|].
    destruct (cl_workers cl <? 1)%Z eqn:Ew.
    + apply Z.ltb_lt in Ew. apply fix_starts_idle with occ cl base (s :: srcs); [exact R|discriminate|exact Ew].
    + apply Z.ltb_ge in Ew. apply fix_starts_runs with occ cl; [exact R|discriminate|exact Ew| |reflexivity|apply given_spec].
      destruct R as [R1 R2 _ _ _]. now apply (fix_output_spec argv occ R1 R2).
  - intros [H|occ cl base srcs R Hs Hw|occ cl base R|occ cl base srcs output workers multi R Hs Hw Ho -> Hm].
    + now apply Stop.
    + rewrite (Go _ _ _ _ R). destruct srcs; [easy|]. now rewrite (proj2 (Z.ltb_lt _ _) Hw).
    + exact (Go _ _ _ _ R).
    + rewrite (Go _ _ _ _ R). destruct srcs as [|s srcs]; [easy|]. rewrite (proj2 (Z.ltb_ge _ _) Hw). destruct R as [R1 R2 _ _ _]. apply (fix_output_spec argv occ R1 R2) in Ho. rewrite <- Ho.
      f_equal. apply eq_true_iff_eq. rewrite Hm. apply given_spec.
Qed.
(** the sources are different files below the base directory, and the output directory is somewhere else *)
Record fix_placed (output base : str) (srcs : list str) : Prop := {
  fp_distinct : NoDup srcs;
  fp_below : forall src, In src srcs -> below_base (jl_relative (tl_jats t)) base src;
  fp_output : forall r, as_dir output <> as_dir base ++ r;
  fp_base : forall r, as_dir base <> as_dir output ++ r }.
(** What the program leaves: every source that can be fixed has its output, below the output
    directory as the source is below the base directory; nothing else has changed; the program
    ends with an exception if a source could not be fixed. *)
Theorem C109_run argv f occ cl base srcs output f1 fails :
  fix_ready argv f occ cl base srcs -> (1 <= cl_workers cl)%Z -> sets occ "--output-path" output -> fix_placed output base srcs ->
  fix_program t argv f f1 fails ->
  (forall src r, In src srcs -> src = as_dir base ++ r -> (forall s, fixes (tl_jats t) output base f src s -> f1 (as_dir output ++ r) = Some s) /\
     ((forall s, ~ fixes (tl_jats t) output base f src s) -> f1 (as_dir output ++ r) = f (as_dir output ++ r))) /\
  (forall p, (forall src r, In src srcs -> src = as_dir base ++ r -> p <> as_dir output ++ r) -> f1 p = f p) /\
  (fails = true <-> exists src, In src srcs /\ forall s, ~ fixes (tl_jats t) output base f src s).
Proof.
  intros R Hw Ho [Hn Hb Hp1 Hp2] P. destruct (C92_paths (tl_jats t) output base srcs Hn Hb) as [Nd Sep]. specialize (Sep Hp1 Hp2).
  assert (O : forall src r, In src srcs -> src = as_dir base ++ r -> out_of (tl_jats t) output base src = as_dir output ++ r).
  { intros src r Hs E. destruct (Hb src Hs) as (r' & E1 & E2 & E3). assert (r' = r) as -> by (rewrite E in E1; now apply app_inv_head in E1).
    unfold out_of. rewrite E2. now apply join_below. }
  destruct srcs as [|s0 srcs'].
  { assert (St : fix_start t argv f = FixNothing) by (apply C109_start; now apply fix_starts_nothing with occ cl base).
    inversion P as [H|H|output' base' srcs workers multi k w H tasks Hk Hf]; subst; try congruence. split; [easy|]. split; [reflexivity|]. split; [discriminate|]. intros (src & [] & _). }
  set (srcs := s0 :: srcs') in *.
  assert (St : exists workers multi, fix_start t argv f = FixRuns output base srcs workers multi).
  { exists (worker_count (Z.to_nat (cl_workers cl)) srcs), (has_flag "--multi-processing" occ). apply C109_start. apply fix_starts_runs with occ cl; auto; [discriminate|apply given_spec]. }
  destruct St as (workers & multi & St). inversion P as [H|H|output' base' srcs'' workers' multi' k w H tasks Hk Hf E1 E2]; try congruence. clear P. rewrite St in H. injection H as <- <- <- <- <-. subst f1 fails.
  split; [|split].
  - intros src r Hs E. rewrite <- (O src r Hs E). apply In_nth_error in Hs as [n Hs'].
    destruct (C92_run (tl_jats t) output base f srcs workers multi Nd Sep k w n src Hk Hf Hs') as [(s & F & _ & W)|(F & _ & W)].
    + split; [|intros G; now destruct (G s)]. intros s' F'. rewrite W. f_equal. destruct F as [_ (d1 & e1 & r1 & b1 & n1 & A1 & A2 & A3 & A4)], F' as [_ (d2 & e2 & r2 & b2 & n2 & B1 & B2 & B3 & B4)].
      assert (fix_file (tl_jats t) (jl_now (tl_jats t) src) d1 = Ok s) by (apply fix_file_spec; eauto 8). assert (d2 = d1) as -> by congruence.
      assert (fix_file (tl_jats t) (jl_now (tl_jats t) src) d1 = Ok s') by (apply fix_file_spec; eauto 8). congruence.
    + split; [intros s F'; now destruct (F s)|intros _; exact W].
  - intros p Hp. apply (C92_others (tl_jats t) output base f srcs workers multi k w p Hk). intros src Hs E. destruct (Hb src Hs) as (r & E1 & _). apply (Hp src r Hs E1). now rewrite <- (O src r Hs E1).
  - apply (C92_fails (tl_jats t) output base f srcs workers multi Nd Sep k w Hk Hf).
Qed.
(** The program comes to an end. *)
Theorem C109_ends argv f : (forall output base srcs workers multi, fix_starts argv f (FixRuns output base srcs workers multi) -> fix_placed output base srcs) ->
  exists f1 fails, fix_program t argv f f1 fails.
Proof.
  intros H. destruct (fix_start t argv f) as [| |output base srcs workers multi] eqn:E.
  - exists f, true. now constructor.
  - exists f, false. now constructor.
  - assert (S := proj1 (C109_start _ _ _) E). destruct (H _ _ _ _ _ S) as [Hn Hb Hp1 Hp2]. destruct (C92_paths (tl_jats t) output base srcs Hn Hb) as [Nd Sep]. specialize (Sep Hp1 Hp2).
    destruct (can_finish (process_source (tl_jats t) output base) None (map (fix_task (tl_jats t) output base) srcs) workers (negb multi) f) as (k & w & Hk & Hf).
    + now apply fix_apart.
    + now apply fix_kept.
    + inversion S as [| | |occ cl b s o wk mp R Hs Hw Ho Hwk Hm]; subst. destruct srcs as [|x srcs]; [easy|]. cbn [length]. lia.
    + exists (w_files w), (fix_run_fails (tl_jats t) output base srcs w). econstructor; [exact E|exact Hk|exact Hf].
Qed.
(** Without a base directory, a list in a directory or a source there is nothing that it could do: it stops. *)
Theorem C109_no_base argv f occ f1 fails : PropArgs.reads (ag_dg a) (fix_decls t) argv occ -> complete (fix_decls t) occ ->
  (forall b, sets occ "--source-base-path" b -> b = []) -> (forall l, sets occ "--source-file-list" l -> ~ In SLASH l) -> ~ gives occ "--source-path" ->
  fix_program t argv f f1 fails -> f1 = f /\ fails = true.
Proof.
  intros HR HC H1 H2 H3 P. assert (E : fix_start t argv f = FixStops).
  { apply C109_start. apply fix_starts_stops. intros occ' cl base srcs [R1 R2 R3 R4 R5].
    assert (E : parse_argv (ag_dg a) (fix_decls t) argv = Some occ') by (now apply fix_line).
    assert (occ' = occ) as -> . { assert (E' : parse_argv (ag_dg a) (fix_decls t) argv = Some occ); [|congruence]. apply fix_line. now split. }
    destruct R4 as [b S Hb|l d H S Hi Hd|p d H Hl S Hd]; [now apply Hb, H1|now apply (H2 l)|]. apply H3. now apply (sets_gives _ _ p). }
  inversion P; subst; try congruence. auto.
Qed.
End Fix.

(* ---------------------------------------------------------------- *)
(** ** Specification: what the command line of download_source_files asks for *)
Notation plan := (plan_copies (tl_special t) (tl_relative t) (tl_absolute t)).
(** the rows of a file list *)
Definition listed (f : files) (occ : occurrences) (list_option column_option : string) (default_column : str) (rows : list str) : Prop :=
  exists path column limit, sets occ list_option path /\ chosen occ column_option default_column itself column /\ chosen occ "--limit" None number_text limit /\
    tl_list t path column limit f = Some rows.
(** the base directory, the output directory and the pattern for names *)
Record configured (occ : occurrences) (base_option output_option pattern_option : string) (c : config) : Prop := {
  cn_base : chosen occ base_option None (fun v x => x = Some v) (cf_base c);
  cn_output : sets occ output_option (cf_output c);
  cn_pattern : chosen occ pattern_option (u "{filename}") itself (cf_pattern c) }.
Record download_ready (argv : list str) (f : files) (occ : occurrences) (dc tc : config) (drows trows : list str) (threads : Z) : Prop := {
  dr_line : PropArgs.reads (ag_dg a) (download_decls t) argv occ;
  dr_complete : complete (download_decls t) occ;
  dr_documents : listed f occ "--document-file-list" "--document-file-column" (u "source_url") drows;
  dr_targets : listed f occ "--target-file-list" "--target-file-column" (u "xml_url") trows;
  dr_document_config : configured occ "--document-base-path" "--document-output-path" "--document-output-filename-pattern" dc;
  dr_target_config : configured occ "--target-base-path" "--target-output-path" "--target-output-filename-pattern" tc;
  dr_threads : chosen occ "--threads" 1%Z (fun v z => ag_int a v = Some z) threads }.

(* ---------------------------------------------------------------- *)
(** ** Proofs *)
Theorem C110_declared : well_declared (download_decls t).
Proof.
  repeat split.
  - apply distinct_NoDup. vm_compute. reflexivity.
  - exists (mkDecl (u "-h") KHelp false). split; [now left|reflexivity].
  - exists (u "--help"), (u "--debug"). split; [discriminate|]. split; [exists (mkDecl (u "--help") KHelp false); split; [right; now left|reflexivity]|].
    split; [exists debug_decl; split; [|reflexivity]; unfold download_decls; cbn [app help_decls In]; tauto|]. split; [now exists (u "help")|now exists (u "debug")].
  - intros d Hd.
    assert (F : forallb (fun d => match dc_kind d with KHelp => streq (dc_name d) (u "-h") || long_ok (dc_name d) | _ => long_ok (dc_name d) end) (download_decls t) = true) by (vm_compute; reflexivity).
    rewrite forallb_forall in F. specialize (F d Hd). cbv beta in F. destruct (dc_kind d) eqn:Ek; [|right; now apply long_ok_spec|right; now apply long_ok_spec].
    apply orb_true_iff in F as [F|F]; [left; split; [now apply streq_true|reflexivity]|right; now apply long_ok_spec].
Qed.
Lemma download_line argv occ : parse_argv (ag_dg a) (download_decls t) argv = Some occ <-> PropArgs.reads (ag_dg a) (download_decls t) argv occ /\ complete (download_decls t) occ.
Proof. apply C95_parse; [exact C110_declared|exact Hdg]. Qed.
Ltac mine := unfold download_decls, help_decls; cbn [app In]; tauto.
Lemma download_text n : In (text n) (download_decls t) -> declared (download_decls t) (u n) (KValue (fun _ => true)).
Proof. intros H. apply (declared_in _ (text n)); [exact H|reflexivity]. Qed.
Lemma download_number n : In (number a n) (download_decls t) -> declared (download_decls t) (u n) (KValue (fun v => is_some (ag_int a v))).
Proof. intros H. apply (declared_in _ (number a n)); [exact H|reflexivity]. Qed.
Lemma download_required n : In (required n) (download_decls t) -> declared (download_decls t) (u n) (KValue (fun _ => true)).
Proof. intros H. apply (declared_in _ (required n)); [exact H|reflexivity]. Qed.
Section Line.
Variable argv : list str.
Variable occ : occurrences.
Hypothesis HR : PropArgs.reads (ag_dg a) (download_decls t) argv occ.
Hypothesis HC : complete (download_decls t) occ.
Lemma required_spec n x : In (required n) (download_decls t) -> sets occ n x <-> x = value_or n [] occ.
Proof.
  intros H. apply (option_required _ _ C110_declared argv occ HR _ (fun _ => true)); [now apply download_required|]. apply (HC (required n)); [exact H|reflexivity].
Qed.
Lemma text_spec n d x : In (text n) (download_decls t) -> chosen occ n d itself x <-> x = value_or n d occ.
Proof. intros H. apply (option_text _ _ C110_declared argv occ HR _ _ (fun _ => true)). now apply download_text. Qed.
Lemma base_spec n x : In (text n) (download_decls t) -> chosen occ n None (fun v x => x = Some v) x <-> x = last_value n occ.
Proof. intros H. apply (option_none _ _ C110_declared argv occ HR _ (fun _ => true)). now apply download_text. Qed.
Lemma listed_spec f l c d rows : In (required l) (download_decls t) -> In (text c) (download_decls t) ->
  listed f occ l c d rows <-> tl_list t (value_or l [] occ) (value_or c d occ) (opt_int t "--limit" occ) f = Some rows.
Proof.
  intros H1 H2. assert (C3 : forall x, chosen occ "--limit" None number_text x <-> x = opt_int t "--limit" occ) by (intros x; apply (number_spec _ _ _ _ _ C110_declared HR); apply download_number; mine).
  unfold listed. split.
  - intros (path & column & limit & E1 & E2 & E3 & E). apply required_spec in E1; [|exact H1]. apply text_spec in E2; [|exact H2]. apply C3 in E3. now subst.
  - intros E. eexists. eexists. eexists. split; [now apply required_spec|]. split; [now apply text_spec|]. split; [now apply C3|exact E].
Qed.
Lemma configured_spec b o p c : In (text b) (download_decls t) -> In (required o) (download_decls t) -> In (text p) (download_decls t) ->
  configured occ b o p c <-> c = mkConfig (last_value b occ) (value_or o [] occ) (value_or p (u "{filename}") occ).
Proof.
  intros H1 H2 H3. split.
  - intros [E1 E2 E3]. apply base_spec in E1; [|exact H1]. apply required_spec in E2; [|exact H2]. apply text_spec in E3; [|exact H3]. destruct c as [c1 c2 c3]. cbn [cf_base cf_output cf_pattern] in *. now subst.
  - intros ->. constructor; cbn [cf_base cf_output cf_pattern]; [now apply base_spec|now apply required_spec|now apply text_spec].
Qed.
Lemma threads_spec z : chosen occ "--threads" 1%Z (fun v z => ag_int a v = Some z) z <-> z = int_or a "--threads" 1 occ.
Proof.
  unfold int_or. destruct (option_cases _ _ C110_declared argv occ HR "--threads" (fun v => is_some (ag_int a v))) as [[E G]|(v & E & S & Hok)]; [apply download_number; mine|rewrite E|rewrite E].
  - split; [|intros ->; now constructor]. intros [_|v y S _]; [reflexivity|]. apply last_value_sets in S. congruence.
  - destruct (ag_int a v) as [y|] eqn:Ey; [|discriminate]. split; [|intros ->; now apply chosen_value with v].
    intros [G|v' y' S' Hz]; [|apply last_value_sets in S'; congruence]. exfalso. apply G. now apply (sets_gives _ _ v).
Qed.
End Line.
Lemma download_ready_spec argv f occ dc tc drows trows z : download_ready argv f occ dc tc drows trows z <->
  parse_argv (ag_dg a) (download_decls t) argv = Some occ /\ document_rows t occ f = Some drows /\ target_rows t occ f = Some trows /\
  dc = document_config occ /\ tc = target_config occ /\ z = int_or a "--threads" 1 occ.
Proof.
  split.
  - intros [H1 H2 H3 H4 H5 H6 H7]. split; [now apply download_line|]. split; [apply (listed_spec argv occ H1 H2) in H3; [exact H3|mine|mine]|]. split; [apply (listed_spec argv occ H1 H2) in H4; [exact H4|mine|mine]|].
    split; [apply (configured_spec argv occ H1 H2) in H5; [exact H5|mine|mine|mine]|]. split; [apply (configured_spec argv occ H1 H2) in H6; [exact H6|mine|mine|mine]|]. now apply (threads_spec argv occ H1).
  - intros (H & H3 & H4 & -> & -> & ->). apply download_line in H as [H1 H2]. constructor; [exact H1|exact H2| | | | |now apply (threads_spec argv occ H1)].
    + apply (listed_spec argv occ H1 H2); [mine|mine|exact H3].
    + apply (listed_spec argv occ H1 H2); [mine|mine|exact H4].
    + apply (configured_spec argv occ H1 H2); [mine|mine|mine|reflexivity].
    + apply (configured_spec argv occ H1 H2); [mine|mine|mine|reflexivity].
Qed.
(** What download_source_files does with its command line: it stops before anything is copied, or
    it copies what is planned for the rows of the two lists. *)
Theorem C110_start argv f docs tgts n : download_start t argv f = Some (docs, tgts, n) <->
  exists occ dc tc drows trows z, download_ready argv f occ dc tc drows trows z /\ plan f dc tc drows trows = Ok (docs, tgts) /\ (1 <= z)%Z /\ n = Z.to_nat z.
Proof.
  unfold download_start. fold a. split.
  - destruct (parse_argv (ag_dg a) (download_decls t) argv) as [occ|] eqn:E1; [|discriminate]. destruct (document_rows t occ f) as [drows|] eqn:E2; [|discriminate].
    destruct (target_rows t occ f) as [trows|] eqn:E3; [|discriminate]. destruct (plan f (document_config occ) (target_config occ) drows trows) as [[docs' tgts']|] eqn:E4; [|discriminate].
    cbv zeta. destruct (int_or a "--threads" 1 occ <? 1)%Z eqn:E5; [discriminate|]. apply Z.ltb_ge in E5. intros [= <- <- <-].
    exists occ, (document_config occ), (target_config occ), drows, trows, (int_or a "--threads" 1 occ). split; [apply download_ready_spec; auto 8|auto].
  - intros (occ & dc & tc & drows & trows & z & R & P & Hz & ->). apply download_ready_spec in R as (-> & -> & -> & -> & -> & ->). rewrite P. cbv zeta. now rewrite (proj2 (Z.ltb_ge _ _) Hz).
Qed.
Lemma download_ready_unique argv f occ dc tc drows trows z occ' dc' tc' drows' trows' z' :
  download_ready argv f occ dc tc drows trows z -> download_ready argv f occ' dc' tc' drows' trows' z' -> dc = dc' /\ tc = tc' /\ drows = drows' /\ trows = trows' /\ z = z'.
Proof.
  intros R R'. apply download_ready_spec in R as (E1 & E2 & E3 & -> & -> & ->). apply download_ready_spec in R' as (F1 & F2 & F3 & -> & -> & ->). assert (occ' = occ) as -> by congruence. repeat split; congruence.
Qed.
(** It stops, and no file has changed, if the command line is wrong or a list cannot be read; if the lists have
    different lengths; if no pair exists; if there are no threads; or if there is something wrong with a
    pattern. *)
Theorem C110_stops argv f f1 fails : download_program t argv f f1 fails ->
  (forall occ dc tc drows trows z, download_ready argv f occ dc tc drows trows z ->
     length drows <> length trows \/ good_rows (tl_absolute t) f dc tc (combine drows trows) = [] \/ (z < 1)%Z \/ (forall docs tgts, plan f dc tc drows trows <> Ok (docs, tgts))) ->
  f1 = f /\ fails = true.
Proof.
  intros P H. assert (N : forall docs tgts n, download_start t argv f <> Some (docs, tgts, n)).
  { intros docs tgts n E. apply C110_start in E as (occ & dc & tc & drows & trows & z & R & Pl & Hz & ->). pose proof (C46_errors (tl_special t) (tl_relative t) (tl_absolute t) f dc tc drows trows) as [W1 W2].
    destruct (H _ _ _ _ _ _ R) as [G|[G|[G|G]]]; [rewrite (W1 G) in Pl; discriminate| |lia|now apply (G docs tgts)].
    destruct (Nat.eq_dec (length drows) (length trows)) as [L|L]; [rewrite (W2 L G) in Pl; discriminate|rewrite (W1 L) in Pl; discriminate]. }
  inversion P as [S|docs tgts threads k w S Hk Hf Hr|docs tgts threads k w k' w' S Hk Hf Hr Hk' Hf']; subst; [auto| |]; now apply N in S.
Qed.
Hypothesis Habs : forall b x, tl_absolute t b (tl_absolute t b x) = tl_absolute t b x.
(** no output is written twice, or is a source *)
Definition download_placed (docs tgts : list task) : Prop :=
  NoDup (map tk_out (docs ++ tgts)) /\ forall s s', In s (docs ++ tgts) -> In s' (docs ++ tgts) -> tk_src s <> tk_out s'.
Section Placed.
Variable f : files.
Variables dc tc : config.
Variables drows trows : list str.
Variables docs tgts : list task.
Hypothesis Hplan : plan f dc tc drows trows = Ok (docs, tgts).
Hypothesis Hplaced : download_placed docs tgts.
Lemma planned_apart : apart (docs ++ tgts).
Proof.
  destruct Hplaced as [Hn _]. intros i j s s' p Hi Hj Hp Hp'. pose proof (C46_exist _ _ _ _ _ _ _ _ _ _ Habs Hplan) as Ex.
  assert (Pt : forall s p, In s (docs ++ tgts) -> In p (paths s) -> p = tk_out s) by (intros s0 p0 Hs [E|E]; [now symmetry|]; destruct (Ex s0 Hs) as [E' _]; rewrite E' in E; destruct E).
  apply Pt in Hp; [|eapply nth_error_In; exact Hi]. apply Pt in Hp'; [|eapply nth_error_In; exact Hj].
  apply (proj1 (NoDup_nth_error _) Hn); [rewrite map_length; apply nth_error_Some; congruence|]. rewrite !nth_error_map, Hi, Hj. cbn. congruence.
Qed.
Lemma planned_kept : sources_kept (docs ++ tgts).
Proof.
  destruct Hplaced as [_ Hs]. intros s s' H H' Hp. pose proof (C46_exist _ _ _ _ _ _ _ _ _ _ Habs Hplan) as Ex.
  apply (Hs s s' H H'). destruct Hp as [E|E]; [now symmetry|]. destruct (Ex s' H') as [E' _]. rewrite E' in E. destruct E.
Qed.
End Placed.
(** What the program leaves, if no output is written twice or is a source: the outputs of the
    k-th row of which both files exist are named by the patterns and have the contents of these
    files; nothing else has changed; and there is no exception. *)
Theorem C110_run argv f occ dc tc drows trows z docs tgts f1 fails :
  download_ready argv f occ dc tc drows trows z -> (1 <= z)%Z -> plan f dc tc drows trows = Ok (docs, tgts) -> download_placed docs tgts ->
  download_program t argv f f1 fails ->
  fails = false /\
  (forall k row, nth_error (good_rows (tl_absolute t) f dc tc (combine drows trows)) k = Some row ->
     let pd := filename_props (short_name (tl_relative t) (tl_absolute t) (cf_base dc) (fst row)) in
     let pt := filename_props (short_name (tl_relative t) (tl_absolute t) (cf_base tc) (snd row)) in
     exists dout tout, named_by (tl_special t) (tl_absolute t) dc (mkContext k pd pd pt) dout /\ named_by (tl_special t) (tl_absolute t) tc (mkContext k pt pd pt) tout /\
       f1 dout = f (file_of (tl_absolute t) (cf_base dc) (fst row)) /\ f1 tout = f (file_of (tl_absolute t) (cf_base tc) (snd row))) /\
  (forall p, (forall s, In s (docs ++ tgts) -> p <> tk_out s) -> f1 p = f p).
Proof.
  intros R Hz Pl Pd P.
  assert (St : download_start t argv f = Some (docs, tgts, Z.to_nat z)) by (apply C110_start; exists occ, dc, tc, drows, trows, z; auto).
  pose proof (planned_apart _ _ _ _ _ _ _ Pl Pd) as A. pose proof (planned_kept _ _ _ _ _ _ _ Pl Pd) as K.
  pose proof (C46_exist _ _ _ _ _ _ _ _ _ _ Habs Pl) as Ex.
  assert (Q : forall k w, copy_steps docs (Z.to_nat z) k f w -> finished docs w -> run_fails docs false w = false).
  { intros k w Hk Hf. assert (Ed : forall s, In s docs -> exists c, f (tk_src s) = Some c) by (intros s Hs; apply Ex; apply in_or_app; now left).
    unfold copy_steps in Hk. assert (A1 : apart docs) by (eapply apart_app; exact A).
    assert (K1 : sources_kept docs) by (intros s s' Hs Hs'; apply K; apply in_or_app; now left).
    rewrite (C45_run copy None docs (Z.to_nat z) true f A1 K1 k w false (or_intror (or_introl eq_refl)) Hk Hf). cbn [negb andb].
    apply not_true_iff_false. rewrite existsb_exists. intros (s & Hs & E). destruct (Ed s Hs) as [c Ec]. unfold outcome_of in E. cbn [final_source] in E. rewrite Ec in E. discriminate. }
  destruct Pd as [Hn Hs].
  inversion P as [S|docs' tgts' threads k w S Hk Hf Hr|docs' tgts' threads k w k' w' S Hk Hf Hr Hk' Hf']; subst; rewrite St in S; try discriminate.
  - injection S as <- <- <-. rewrite (Q k w Hk Hf) in Hr. discriminate.
  - injection S as <- <- <-. destruct (C46_copies f docs tgts (Z.to_nat z) k w k' w' A K Ex Hk Hf Hk' Hf') as (_ & F & C & O). split; [exact F|]. split; [|exact O].
    intros i row Hi. cbv zeta. destruct (C46_pairs _ _ _ _ _ _ _ _ _ _ Pl) as (_ & _ & _ & _ & W). destruct (W i row Hi) as (d & s & Hd & Hs' & (X1 & X2 & _ & _ & X3 & X4)).
    exists (tk_out d), (tk_out s). split; [exact X3|]. split; [exact X4|].
    assert (Rd : forall base r, read_file (tl_absolute t) base r = file_of (tl_absolute t) base r) by (intros [[|x b]|] r; unfold read_file, file_of; auto).
    rewrite !C, X1, X2, !Rd; [auto| |]; apply in_or_app; [right|left]; eapply nth_error_In; eassumption.
Qed.
(** The program comes to an end. *)
Theorem C110_ends argv f : (forall docs tgts n, download_start t argv f = Some (docs, tgts, n) -> download_placed docs tgts) -> exists f1 fails, download_program t argv f f1 fails.
Proof.
  intros H. destruct (download_start t argv f) as [[[docs tgts] n]|] eqn:E; [|exists f, true; now constructor].
  pose proof (H _ _ _ eq_refl) as Pd. assert (E' := E). apply C110_start in E' as (occ & dc & tc & drows & trows & z & R & Pl & Hz & ->).
  pose proof (planned_apart _ _ _ _ _ _ _ Pl Pd) as A. pose proof (planned_kept _ _ _ _ _ _ _ Pl Pd) as K.
  destruct (can_finish copy None docs (Z.to_nat z) true f) as (k & w & Hk & Hf); [eapply apart_app; exact A|intros s s' Hs Hs'; apply K; apply in_or_app; now left|lia|].
  destruct (run_fails docs false w) eqn:Hr; [exists (w_files w), true; eapply download_fails; eassumption|].
  destruct (can_finish copy None tgts (Z.to_nat z) true (w_files w)) as (k' & w' & Hk' & Hf'); [now apply (apart_tail docs)|intros s s' Hs Hs'; apply K; apply in_or_app; now right|lia|].
  exists (w_files w'), (run_fails tgts false w'). eapply download_runs; eassumption.
Qed.
(** C111: the help says that the base path is the directory of the file list by default.  This is not so
    ([C111_refuted]): the rows are taken as they are, which is the same only for rows that do not
    depend on the base path. *)
Theorem C111_partial argv f occ dc tc drows trows z list_path : download_ready argv f occ dc tc drows trows z -> ~ gives occ "--document-base-path" -> sets occ "--document-file-list" list_path ->
  (forall row, In row drows -> file_of (tl_absolute t) (cf_base dc) row = row) /\
  ((forall row, In row drows -> tl_absolute t (dirname list_path) row = row) ->
   forall row, In row drows -> file_of (tl_absolute t) (cf_base dc) row = file_of (tl_absolute t) (Some (dirname list_path)) row).
Proof.
  intros R Hg Hl. assert (E : cf_base dc = None).
  { destruct R as [_ _ _ _ [B _ _] _ _]. destruct B as [_|v y S _]; [reflexivity|]. exfalso. apply Hg. now apply (sets_gives _ _ v). }
  rewrite E. split; [reflexivity|]. intros H row Hr. unfold file_of. destruct (dirname list_path) as [|x y] eqn:Ed; [reflexivity|]. symmetry. now apply H.
Qed.
End Tools.

(* ---------------------------------------------------------------- *)
(** ** Examples *)
Definition tools_args : arg_libs :=
  mkArgLibs ascii_space ascii_digit ex_int (fun s => option_map inject_Z (ex_int s)) (fun l => l) ex_cloud (fun occ => Some (mkCloud (given (u "--cloud") occ) 2)).
Definition limited (limit : option Z) (l : list str) : list str := match limit with Some z => firstn (Z.to_nat z) l | None => l end.
(** lists of files, by their names and columns *)
Definition tools_list (path column : str) (limit : option Z) (f : files) : option (list str) :=
  if streq path (u "files.tsv") && streq column (u "url") then Some (limited limit jats_srcs)
  else if streq path (u "docs.tsv") && streq column (u "source_url") then Some (limited limit [u "x/1.pdf.gz"; u "x/2.pdf"; u "x/3.pdf"])
  else if streq path (u "targets.lst") && streq column (u "xml_url") then Some (limited limit [u "x/1.xml"; u "x/2.xml"; u "x/3.xml"])
  else if streq path (u "lists/docs.tsv") then Some [u "a.pdf"]
  else if streq path (u "lists/targets.tsv") then Some [u "a.xml"] else None.
(** the path below the base directory, if it is not there already *)
Definition ex_below (b x : str) : str := if starts_with (as_dir b) x then x else join_path b x.
Lemma ex_below_twice b x : ex_below b (ex_below b x) = ex_below b x.
Proof.
  unfold ex_below. destruct (starts_with (as_dir b) x) eqn:E; [now rewrite E|].
  destruct x as [|y x].
  - rewrite join_below by discriminate. assert (S : starts_with (as_dir b) (as_dir b ++ []) = true) by (apply starts_with_spec; now exists []). now rewrite S.
  - destruct (N.eq_dec y SLASH) as [-> |Hy].
    + assert (J : join_path b (SLASH :: x) = SLASH :: x) by reflexivity. rewrite J, E. reflexivity.
    + rewrite (join_below b (y :: x)) by (intros r [= -> _]; now apply Hy). assert (S : starts_with (as_dir b) (as_dir b ++ y :: x) = true) by (apply starts_with_spec; now exists (y :: x)). now rewrite S.
Qed.
Definition tools_ex : tool_libs := mkToolLibs tools_args tools_list (fun pattern limit f => limited limit jats_srcs) ex_jats ex_special ex_relative ex_below.
Lemma tools_fresh : fix_cloud_fresh tools_ex.
Proof.
  split; [apply distinct_NoDup; reflexivity|].
  assert (F : forallb (fun d => negb (mem (dc_name d) (fix_names tools_ex)) && long_ok (dc_name d) && negb (dc_required d)) (ag_cloud tools_args) = true) by (vm_compute; reflexivity).
  intros d Hd. rewrite forallb_forall in F. specialize (F d Hd). cbv beta in F. apply andb_true_iff in F as [F F3]. apply andb_true_iff in F as [F1 F2]. apply negb_true_iff in F1, F3.
  split; [intros Q; apply mem_In in Q; congruence|]. destruct (long_ok_spec _ F2) as (L1 & L2 & L3). auto.
Qed.
Lemma tools_dg : ag_dg (tl_args tools_ex) 10%N = false /\ ag_dg (tl_args tools_ex) ch_dot = false.
Proof. split; reflexivity. Qed.

(** fix_jats_xml: with a list; [--out] is short for [--output-path] *)
Definition fix_argv : list str := [u "--source-file-list"; u "files.tsv"; u "--source-file-list-column=url"; u "--out=out"; u "--source-base=in"; u "--debug"].
Definition fix_occ : occurrences :=
  [(u "--source-file-list", Some (u "files.tsv")); (u "--source-file-list-column", Some (u "url")); (u "--output-path", Some (u "out")); (u "--source-base-path", Some (u "in")); (u "--debug", None)].
Lemma fix_ex_ready : fix_ready tools_ex fix_argv jats_files fix_occ (mkCloud false 2) (u "in") jats_srcs.
Proof. apply (fix_ready_spec tools_ex tools_dg tools_fresh). vm_compute. auto. Qed.
Lemma fix_ex_placed : fix_placed tools_ex (u "out") (u "in") jats_srcs.
Proof.
  constructor; [repeat constructor; cbn; intuition discriminate| |discriminate|discriminate].
  intros src [<-|[<-|[<-|[]]]]; [exists (u "a.xml")|exists (u "b/a.xml")|exists (u "c.xml")]; (repeat split; discriminate).
Qed.
Example C109_ex : exists f1, fix_program tools_ex fix_argv jats_files f1 true /\
  map (fun p => match f1 p with Some s => firstn 13 s | None => [] end) [u "out/a.xml"; u "out/b/a.xml"; u "out/c.xml"] = [u "UTF-8<article"; u "ASCII<article"; []] /\
  (exists s, fixes ex_jats (u "out") (u "in") jats_files (u "in/b/a.xml") s) /\ forall s, ~ fixes ex_jats (u "out") (u "in") jats_files (u "in/c.xml") s.
Proof.
  destruct C92_ex as (k & w & Hk & Hf & Hp & Ho & Hr & Hn & Hs). exists (w_files w). split; [rewrite <- Hr; eapply (fix_program_runs tools_ex); [vm_compute; reflexivity|exact Hk|exact Hf]|].
  split; [exact Ho|]. injection Hp as P1 P2 P3. split.
  - destruct (C92_run ex_jats (u "out") (u "in") jats_files jats_srcs 2 false Hn Hs k w 1 (u "in/b/a.xml") Hk Hf eq_refl) as [(s & F & _)|(_ & E & _)]; [now exists s|congruence].
  - destruct (C92_run ex_jats (u "out") (u "in") jats_files jats_srcs 2 false Hn Hs k w 2 (u "in/c.xml") Hk Hf eq_refl) as [(s & _ & E & _)|(F & _ & _)]; [congruence|exact F].
Qed.
(** no output path; nothing left by the limit; a list without a directory; one source; a pattern *)
Example C109_ex_start :
  fix_start tools_ex [u "--source-path=in/a.xml"] jats_files = FixStops /\
  fix_start tools_ex (fix_argv ++ [u "--limit=0"]) jats_files = FixNothing /\
  fix_start tools_ex [u "--source-file-list=files.tsv"; u "--source-file-list-column=url"; u "--output-path=out"] jats_files = FixStops /\
  fix_start tools_ex [u "--source-path=in/a.xml"; u "--output-path=out"; u "--multi"] jats_files = FixRuns (u "out") (u "in") [u "in/a.xml"] 1 true /\
  fix_start tools_ex [u "--source-base-path=in"; u "--output-path=out"; u "--limit=2"] jats_files = FixRuns (u "out") (u "in") [u "in/a.xml"; u "in/b/a.xml"] 2 false.
Proof. vm_compute. auto. Qed.
Example C109_ex_no_base : let argv := [u "--source-file-list=files.tsv"; u "--source-base-path="; u "--output-path=out"] in
  let occ := [(u "--source-file-list", Some (u "files.tsv")); (u "--source-base-path", Some []); (u "--output-path", Some (u "out"))] in
  parse_argv (ag_dg tools_args) (fix_decls tools_ex) argv = Some occ /\ (forall b, sets occ "--source-base-path" b -> b = []) /\
  (forall l, sets occ "--source-file-list" l -> ~ In SLASH l) /\ ~ gives occ "--source-path".
Proof.
  cbv zeta. split; [vm_compute; reflexivity|]. split; [intros b H; apply last_value_sets in H; vm_compute in H; congruence|]. split.
  - intros l H. apply last_value_sets in H. vm_compute in H. injection H as <-. cbn. intuition discriminate.
  - unfold gives. cbn. intuition discriminate.
Qed.

(** download_source_files, with two threads *)
Definition dl_argv : list str :=
  [u "--document-file-list"; u "docs.tsv"; u "--document-base-path=/d"; u "--document-output-path=/out/docs"; u "--document-output-filename=" ++ u "{index}-{name}{ext}";
   u "--target-file-list"; u "targets.lst"; u "--target-base-path=/t"; u "--target-output-path=/out/xml"; u "--target-output-filename-pattern"; u "{document.name}.tei.xml"; u "--threads=2"].
Definition dl_docs : list task := [mkTask (u "/d/x/1.pdf.gz") (u "/out/docs/0-1.pdf") None; mkTask (u "/d/x/3.pdf") (u "/out/docs/1-3.pdf") None].
Definition dl_tgts : list task := [mkTask (u "/t/x/1.xml") (u "/out/xml/1.tei.xml") None; mkTask (u "/t/x/3.xml") (u "/out/xml/3.tei.xml") None].
Lemma dl_start : download_start tools_ex dl_argv ex_disk = Some (dl_docs, dl_tgts, 2).
Proof. vm_compute. reflexivity. Qed.
Lemma dl_placed : download_placed dl_docs dl_tgts.
Proof.
  split; [repeat constructor; cbn; intuition discriminate|]. intros s s' Hs Hs'. cbn in Hs, Hs'. destruct Hs as [<-|[<-|[<-|[<-|[]]]]]; destruct Hs' as [<-|[<-|[<-|[<-|[]]]]]; discriminate.
Qed.
Example C110_ex : exists f1 fails, download_program tools_ex dl_argv ex_disk f1 fails /\ fails = false /\
  map f1 [u "/out/docs/0-1.pdf"; u "/out/docs/1-3.pdf"; u "/out/xml/1.tei.xml"; u "/out/xml/3.tei.xml"; u "/d/x/2.pdf"; u "/out/xml/2.tei.xml"] =
    [Some (u "one"); Some (u "three"); Some (u "uno"); Some (u "tre"); Some (u "two"); None].
Proof.
  destruct (C110_ends tools_ex tools_dg ex_below_twice dl_argv ex_disk) as (f1 & fails & P).
  { intros docs tgts n E. rewrite dl_start in E. injection E as <- <- _. exact dl_placed. }
  exists f1, fails. split; [exact P|]. pose proof (proj1 (C110_start tools_ex tools_dg dl_argv ex_disk _ _ _) dl_start) as (occ & dc & tc & drows & trows & z & R & Pl & Hz & _).
  destruct (C110_run tools_ex tools_dg ex_below_twice _ _ _ _ _ _ _ _ _ _ _ _ R Hz Pl dl_placed P) as (F & C & O). split; [exact F|].
  apply (download_ready_spec tools_ex tools_dg) in R as (E1 & E2 & E3 & E4 & E5 & E6).
  assert (Eo : parse_argv (ag_dg (tl_args tools_ex)) (download_decls tools_ex) dl_argv = Some occ) by exact E1. vm_compute in Eo. injection Eo as <-. vm_compute in E2, E3. injection E2 as <-. injection E3 as <-.
  assert (Dn : forall k row dout tout, nth_error dl_docs k = Some dout -> nth_error dl_tgts k = Some tout -> nth_error (good_rows ex_below ex_disk dc tc (combine [u "x/1.pdf.gz"; u "x/2.pdf"; u "x/3.pdf"] [u "x/1.xml"; u "x/2.xml"; u "x/3.xml"])) k = Some row ->
    f1 (tk_out dout) = ex_disk (tk_src dout) /\ f1 (tk_out tout) = ex_disk (tk_src tout)).
  { intros k row dout tout Hd Ht Hk. destruct (C k row Hk) as (d & s & (p1 & n1 & P1 & V1 & ->) & (p2 & n2 & P2 & V2 & ->) & H1 & H2). subst dc tc.
    destruct k as [|[|k]]; [| |destruct k; discriminate].
    - injection Hd as <-. injection Ht as <-. vm_compute in Hk. injection Hk as <-. vm_compute in P1. injection P1 as <-. vm_compute in V1. injection V1 as <-. vm_compute in P2. injection P2 as <-. vm_compute in V2. injection V2 as <-. split; [exact H1|exact H2].
    - injection Hd as <-. injection Ht as <-. vm_compute in Hk. injection Hk as <-. vm_compute in P1. injection P1 as <-. vm_compute in V1. injection V1 as <-. vm_compute in P2. injection P2 as <-. vm_compute in V2. injection V2 as <-. split; [exact H1|exact H2]. }
  assert (D0 := Dn 0 (u "x/1.pdf.gz", u "x/1.xml") _ _ eq_refl eq_refl ltac:(subst dc tc; vm_compute; reflexivity)). assert (D1 := Dn 1 (u "x/3.pdf", u "x/3.xml") _ _ eq_refl eq_refl ltac:(subst dc tc; vm_compute; reflexivity)).
  cbn [tk_out tk_src dl_docs dl_tgts] in D0, D1. destruct D0 as [D0 D0'], D1 as [D1 D1']. cbn [map]. rewrite D0, D0', D1, D1'.
  rewrite (O (u "/d/x/2.pdf")) by (intros s Hs; cbn in Hs; destruct Hs as [<-|[<-|[<-|[<-|[]]]]]; discriminate). rewrite (O (u "/out/xml/2.tei.xml")) by (intros s Hs; cbn in Hs; destruct Hs as [<-|[<-|[<-|[<-|[]]]]]; discriminate). reflexivity.
Qed.
(** no threads; a list that is not there; lists of different lengths *)
Example C110_ex_stops : download_start tools_ex (dl_argv ++ [u "--threads=0"]) ex_disk = None /\
  download_start tools_ex (dl_argv ++ [u "--target-file-list=other.lst"]) ex_disk = None /\
  download_start tools_ex (dl_argv ++ [u "--target-file-list=lists/targets.tsv"]) ex_disk = None /\
  download_start tools_ex (dl_argv ++ [u "--target-output-filename-pattern={nme}"]) ex_disk = None /\
  download_start tools_ex (dl_argv ++ [u "--limit=1"]) ex_disk = Some (firstn 1 dl_docs, firstn 1 dl_tgts, 2).
Proof. vm_compute. auto. Qed.
(** If relative paths are always joined with the base path, then a relative base path is
    put before the files twice: nothing is copied although both files of the row are there. *)
Definition tools_join : tool_libs := mkToolLibs tools_args tools_list (fun _ _ _ => []) ex_jats ex_special ex_relative ex_absolute.
Definition rel_argv : list str :=
  [u "--document-file-list=lists/docs.tsv"; u "--document-base-path=data"; u "--document-output-path=out/docs";
   u "--target-file-list=lists/targets.tsv"; u "--target-base-path=data"; u "--target-output-path=out/xml"].
Definition rel_disk : files := fun p => if streq p (u "data/a.pdf") then Some (u "pdf") else if streq p (u "data/a.xml") then Some (u "xml") else None.
Theorem C110_relative_refuted : exists t argv f occ dc tc drows trows z, download_ready t argv f occ dc tc drows trows z /\ (1 <= z)%Z /\
  length (good_rows (tl_absolute t) f dc tc (combine drows trows)) = 1 /\ (forall f1 fails, download_program t argv f f1 fails -> fails = true).
Proof.
  exists tools_join, rel_argv, rel_disk. eexists. eexists. eexists. eexists. eexists. eexists. split; [apply (download_ready_spec tools_join tools_dg); vm_compute; repeat split; reflexivity|].
  split; [lia|]. split; [vm_compute; reflexivity|]. intros f1 fails P.
  inversion P as [S|docs tgts threads k w S Hk Hf Hr|docs tgts threads k w k' w' S Hk Hf Hr Hk' Hf']; subst; [reflexivity|reflexivity|]. exfalso.
  vm_compute in S. injection S as <- <- <-.
  assert (A1 : apart [mkTask (u "data/data/a.pdf") (u "out/docs/out/docs/a.pdf") None]) by (intros [|i] [|j] s s' p Hi Hj; cbn in Hi, Hj; try (now destruct i); try (now destruct j); reflexivity).
  assert (K1 : sources_kept [mkTask (u "data/data/a.pdf") (u "out/docs/out/docs/a.pdf") None]) by (intros s s' [<-|[]] [<-|[]] [Q|[]]; discriminate).
  unfold copy_steps in Hk. pose proof (C45_run copy None _ _ true rel_disk A1 K1 k w false (or_intror (or_introl eq_refl)) Hk Hf) as Q. pose proof (eq_trans (eq_sym Hr) Q) as Q'. vm_compute in Q'. discriminate.
Qed.
(** The lists and the files are in a directory, and no base path is given. *)
Definition near_argv : list str :=
  [u "--document-file-list=lists/docs.tsv"; u "--document-output-path=out/docs"; u "--target-file-list=lists/targets.tsv"; u "--target-output-path=out/xml"].
Definition near_disk : files := fun p => if streq p (u "lists/a.pdf") then Some (u "pdf") else if streq p (u "lists/a.xml") then Some (u "xml") else None.
Theorem C111_refuted : exists t argv f occ dc tc drows trows z, download_ready t argv f occ dc tc drows trows z /\ (1 <= z)%Z /\
  ~ gives occ "--document-base-path" /\ ~ gives occ "--target-base-path" /\
  (exists list_path list_path', sets occ "--document-file-list" list_path /\ sets occ "--target-file-list" list_path' /\
     Forall (fun row => f (join_path (dirname list_path) row) <> None) drows /\ Forall (fun row => f (join_path (dirname list_path') row) <> None) trows /\ drows <> []) /\
  (forall f1 fails, download_program t argv f f1 fails -> f1 = f /\ fails = true).
Proof.
  exists tools_ex, near_argv, near_disk. eexists. eexists. eexists. eexists. eexists. eexists. split; [apply (download_ready_spec tools_ex tools_dg); vm_compute; repeat split; reflexivity|].
  split; [lia|]. split; [unfold gives; cbn; intuition discriminate|]. split; [unfold gives; cbn; intuition discriminate|]. split.
  - exists (u "lists/docs.tsv"), (u "lists/targets.tsv"). split; [apply last_value_sets; vm_compute; reflexivity|]. split; [apply last_value_sets; vm_compute; reflexivity|].
    split; [repeat constructor; vm_compute; discriminate|]. split; [repeat constructor; vm_compute; discriminate|discriminate].
  - intros f1 fails P. assert (S : download_start tools_ex near_argv near_disk = None) by (vm_compute; reflexivity). inversion P; subst; try congruence. auto.
Qed.
Example C111_ex : exists occ dc tc drows trows z, download_ready tools_ex [u "--document-file-list=docs.tsv"; u "--document-output-path=out/docs"; u "--target-file-list=targets.lst"; u "--target-output-path=out/xml"] ex_disk occ dc tc drows trows z /\
  ~ gives occ "--document-base-path" /\ sets occ "--document-file-list" (u "docs.tsv") /\ In (u "x/2.pdf") drows.
Proof.
  eexists. eexists. eexists. eexists. eexists. eexists. split; [apply (download_ready_spec tools_ex tools_dg); vm_compute; repeat split; reflexivity|].
  split; [unfold gives; cbn; intuition discriminate|]. split; [apply last_value_sets; vm_compute; reflexivity|right; now left].
Qed.
Print Assumptions C109_declared.
Print Assumptions C109_switches.
Print Assumptions C109_start.
Print Assumptions C109_run.
Print Assumptions C109_ends.
Print Assumptions C109_no_base.
Print Assumptions C110_declared.
Print Assumptions C110_start.
Print Assumptions C110_stops.
Print Assumptions C110_run.
Print Assumptions C110_ends.
Print Assumptions C110_relative_refuted.
Print Assumptions C111_partial.
Print Assumptions C111_refuted.
