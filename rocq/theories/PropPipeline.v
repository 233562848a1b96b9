(** C41 - C45: the annotation pipeline *)
From Verif Require Import Base ModelPipeline.
Open Scope nat_scope.

(* ---------------------------------------------------------------- *)
(** ** Specification *)
(** the paths a task may write to *)
Definition paths (t : task) : list str := tk_out t :: match tk_failed t with Some p => [p] | None => [] end.
(** no file is written by two tasks *)
Definition apart (ts : list task) : Prop :=
  forall i j t t' p, nth_error ts i = Some t -> nth_error ts j = Some t' -> In p (paths t) -> In p (paths t') -> i = j.
(** no source is written *)
Definition sources_kept (ts : list task) : Prop := forall t t', In t ts -> In t' ts -> ~ In (tk_src t) (paths t').
Definition same_files (f f' : files) : Prop := forall p, f p = f' p.
Definition is_fail (o : outcome) : bool := match o with OFail => true | _ => false end.

(* ---------------------------------------------------------------- *)
(** ** C41: one document *)
Section One.
Variable process : str -> str -> outcome.
Variable fixed : option (str -> option str).
Notation auto := (auto_annotate process fixed).
Notation outcome_of := (outcome_of process fixed).

(** The content is the outcome for the source; it goes to the output path if the checks
    pass, to the other path if there is one and they fail; nothing else changes. *)
Theorem C41_one t f f' e : auto t f = (f', e) ->
  (forall p, f' p <> f p ->
     exists c, f' p = Some c /\ (outcome_of t f = OSave c /\ p = tk_out t \/ outcome_of t f = OReject c /\ tk_failed t = Some p)) /\
  (forall c, outcome_of t f = OSave c -> f' (tk_out t) = Some c /\ e = false) /\
  (forall c p, outcome_of t f = OReject c -> tk_failed t = Some p -> f' p = Some c /\ e = false) /\
  (forall c, outcome_of t f = OReject c -> tk_failed t = None -> same_files f' f /\ e = false) /\
  (outcome_of t f = OFail <-> e = true) /\ (e = true -> same_files f' f).
Proof.
  assert (U : forall p c q, upd f p (Some c) q <> f q -> q = p /\ upd f p (Some c) q = Some c).
  { intros p c q. unfold upd. destruct (streq q p) eqn:Ep; [|congruence]. apply streq_true in Ep. auto. }
  assert (V : forall p c, upd f p (Some c) p = Some c) by (intros p c; unfold upd; now rewrite streq_refl).
  unfold auto_annotate. destruct (outcome_of t f) as [c|c|] eqn:E; cbn [save_target]; [|destruct (tk_failed t) as [q|] eqn:Eq; cbn [option_map]|];
    intros [= <- <-]; repeat split; try congruence; try discriminate.
  - intros p Hp. apply U in Hp as [-> Hp]. exists c. auto.
  - intros p Hp. apply U in Hp as [-> Hp]. exists c. auto.
Qed.
End One.

(* ---------------------------------------------------------------- *)
(** ** C42: which files are processed *)
Lemma without_filter out f l : without_output out f l = filter (fun x => negb (exists_file f (out x))) l.
Proof.
  unfold without_output. induction l as [|x l IH]; [reflexivity|]. cbn [map combine filter snd]. cbn zeta in IH.
  destruct (exists_file f (out x)); cbn [negb]; [exact IH|]. cbn [map fst]. f_equal. exact IH.
Qed.
(** [l'] is [l] with some elements left out *)
Inductive sub_list {A} : list A -> list A -> Prop :=
| sub_nil : sub_list [] []
| sub_keep x l l' : sub_list l l' -> sub_list (x :: l) (x :: l')
| sub_drop x l l' : sub_list l l' -> sub_list (x :: l) l'.
Theorem C42_resume dir f l :
  sub_list l (remaining true dir f l) /\
  (forall x, In x (remaining true dir f l) <-> In x l /\ f (join_path dir (basename x)) = None) /\
  (forall x, f (join_path dir (basename x)) = None -> count_occ str_eq_dec (remaining true dir f l) x = count_occ str_eq_dec l x).
Proof.
  assert (E : remaining true dir f l = filter (fun x => negb (exists_file f (output_path dir x))) l).
  { destruct l as [|x l]; [reflexivity|]. apply without_filter. }
  rewrite E. clear E. split; [|split].
  - induction l as [|x l IH]; cbn [filter]; [constructor|]. destruct (negb _); constructor; exact IH.
  - intros x. rewrite filter_In. unfold exists_file, output_path. destruct (f _); cbn; intuition congruence.
  - intros x Hx. induction l as [|y l IH]; [reflexivity|]. cbn [filter count_occ]. unfold exists_file, output_path in *.
    destruct (str_eq_dec y x) as [->|Hn].
    + rewrite Hx. cbn [negb count_occ]. destruct (str_eq_dec x x); congruence.
    + destruct (f (join_path dir (basename y))); cbn [negb count_occ]; [exact IH|]. destruct (str_eq_dec y x); [congruence|exact IH].
Qed.
Theorem C42_all dir f l : remaining false dir f l = l.
Proof. destruct l; reflexivity. Qed.

(* ---------------------------------------------------------------- *)
(** ** Output paths are distinct if the file names are *)
Definition slash_free (s : str) : Prop := ~ In SLASH s.
Lemma after_last_free p : forall cur, slash_free cur -> slash_free (after_last cur p).
Proof.
  induction p as [|x p IH]; intros cur H; [exact H|]. cbn [after_last]. destruct (N.eqb x SLASH) eqn:E; [apply IH; easy|].
  apply IH. intros K. apply in_app_or in K as [K|[->|[]]]; [now apply H|]. rewrite N.eqb_refl in E. discriminate.
Qed.
Lemma basename_free p : slash_free (basename p).
Proof. apply after_last_free. easy. Qed.
Lemma after_last_app cur d b : after_last cur (d ++ SLASH :: b) = after_last [] b.
Proof.
  revert cur. induction d as [|x d IH]; intros cur; cbn [app after_last]; [now rewrite N.eqb_refl|]. destruct (N.eqb x SLASH); apply IH.
Qed.
Lemma after_last_none b : forall cur, slash_free b -> after_last cur b = cur ++ b.
Proof.
  induction b as [|x b IH]; intros cur H; cbn [after_last]; [now rewrite app_nil_r|].
  destruct (N.eqb x SLASH) eqn:E; [apply N.eqb_eq in E as ->; destruct H; now left|]. rewrite IH; [now rewrite <- app_assoc|]. intros K. apply H. now right.
Qed.
(** the file name of a joined path *)
Lemma basename_join a b : slash_free b -> basename (join_path a b) = b.
Proof.
  intros H. unfold basename, join_path.
  assert (E : match b with x :: _ => N.eqb x SLASH | [] => false end = false).
  { destruct b as [|x b]; [reflexivity|]. apply N.eqb_neq. intros ->. apply H. now left. }
  rewrite E. destruct a as [|y a]; [now apply (after_last_none b [])|].
  destruct (ends_with_slash (y :: a)) eqn:Es.
  - unfold ends_with_slash in Es. destruct (rev (y :: a)) as [|z r] eqn:Er; [discriminate|]. apply N.eqb_eq in Es as ->.
    assert (Ea : y :: a = rev r ++ [SLASH]) by (rewrite <- (rev_involutive (y :: a)), Er; reflexivity).
    rewrite Ea, <- app_assoc. cbn [app]. rewrite after_last_app. now apply (after_last_none b []).
  - rewrite after_last_app. now apply (after_last_none b []).
Qed.
(** the directory part of a joined path *)
Definition as_dir (a : str) : str := match a with [] => [] | _ => if ends_with_slash a then a else a ++ [SLASH] end.
Lemma join_as_dir a b : slash_free b -> join_path a b = as_dir a ++ b.
Proof.
  intros H. unfold join_path, as_dir.
  assert (E : match b with x :: _ => N.eqb x SLASH | [] => false end = false).
  { destruct b as [|x b]; [reflexivity|]. apply N.eqb_neq. intros ->. apply H. now left. }
  rewrite E. destruct a as [|y a]; [reflexivity|]. destruct (ends_with_slash (y :: a)); [reflexivity|]. now rewrite <- app_assoc.
Qed.
Lemma join_inj a a' b b' : slash_free b -> slash_free b' -> join_path a b = join_path a' b' -> b = b' /\ as_dir a = as_dir a'.
Proof.
  intros H H' E. assert (Eb : b = b') by (rewrite <- (basename_join a b H), E; now apply basename_join). split; [exact Eb|].
  rewrite !join_as_dir in E by assumption. subst b'. now apply app_inv_tail in E.
Qed.
(** A single file: this one and no other, unless it is done; without one, the files found. *)
Theorem C42_single resume dir f p found : p <> [] ->
  forall q, In q (remaining resume dir f (source_list (Some p) found)) <-> q = p /\ (resume = true -> f (join_path dir (basename p)) = None).
Proof.
  intros Hp q. destruct p as [|c p]; [contradiction|]. cbn [source_list]. destruct resume.
  - destruct (C42_resume dir f [c :: p]) as (_ & H & _). rewrite H. cbn [In]. split; [intros [[<-|[]] E]; auto|intros [-> E]; auto].
  - rewrite C42_all. cbn [In]. split; [intros [<-|[]]; split; [reflexivity|discriminate]|intros [-> _]; auto].
Qed.
Theorem C42_found resume dir f found q : In q (remaining resume dir f (source_list None found)) <-> In q found /\ (resume = true -> f (join_path dir (basename q)) = None).
Proof.
  cbn [source_list]. destruct resume.
  - destruct (C42_resume dir f found) as (_ & H & _). rewrite H. intuition.
  - rewrite C42_all. intuition discriminate.
Qed.
Theorem C43_names dir fdir srcs :
  NoDup (map basename srcs) ->
  apart (map (task_for dir fdir) srcs).
Proof.
  intros Hn i j t t' p Hi Hj Hp Hp'. rewrite nth_error_map in Hi, Hj.
  destruct (nth_error srcs i) as [s|] eqn:Ei; [|discriminate]. destruct (nth_error srcs j) as [s'|] eqn:Ej; [|discriminate].
  injection Hi as <-. injection Hj as <-.
  assert (B : forall s p, In p (paths (task_for dir fdir s)) -> basename p = basename s).
  { intros s0 q [<-|H]; [apply basename_join, basename_free|]. cbn [task_for tk_failed] in H. unfold failed_path in H.
    destruct fdir as [[|x d]|]; [easy| |easy]. destruct H as [<-|[]]. apply basename_join, basename_free. }
  apply B in Hp, Hp'. apply (proj1 (NoDup_nth_error _) Hn).
  - apply nth_error_Some. rewrite nth_error_map, Ei. discriminate.
  - rewrite !nth_error_map, Ei, Ej. cbn. congruence.
Qed.
(** Sources in another directory are not written to. *)
Theorem C43_sources sdir dir fdir names :
  Forall slash_free names -> as_dir sdir <> as_dir dir -> (forall d, fdir = Some d -> as_dir sdir <> as_dir d) ->
  sources_kept (map (task_for dir fdir) (map (join_path sdir) names)).
Proof.
  intros Hn H1 H2 t t' Ht Ht' Hp. rewrite map_map in Ht, Ht'. apply in_map_iff in Ht as (n & <- & Hin). apply in_map_iff in Ht' as (n' & <- & Hin').
  rewrite Forall_forall in Hn. specialize (Hn n Hin). cbn [task_for tk_src] in Hp. destruct Hp as [Hp|Hp].
  - symmetry in Hp. apply join_inj in Hp as [_ Hp]; [contradiction|exact Hn|apply basename_free].
  - cbn [task_for tk_failed] in Hp. unfold failed_path in Hp. destruct fdir as [[|x d]|]; [easy| |easy]. destruct Hp as [Hp|[]].
    symmetry in Hp. apply join_inj in Hp as [_ Hp]; [now apply (H2 _ eq_refl)|exact Hn|apply basename_free].
Qed.

(* ---------------------------------------------------------------- *)
(** ** The workers *)
Lemma filter_imp_length {A} (p q : A -> bool) l : (forall x, In x l -> p x = true -> q x = true) -> length (filter p l) <= length (filter q l).
Proof.
  induction l as [|x l IH]; intros H; [cbn; lia|]. cbn [filter]. assert (Hl : length (filter p l) <= length (filter q l)) by (apply IH; intros y Hy; apply H; now right).
  destruct (p x) eqn:E; [rewrite (H x (or_introl eq_refl) E); cbn; lia|]. destruct (q x); cbn; lia.
Qed.
Lemma filter_one_more (p q : nat -> bool) i l : NoDup l -> (forall x, In x l -> x <> i -> p x = true -> q x = true) ->
  length (filter p l) <= S (length (filter q l)).
Proof.
  intros Hl H. induction l as [|x l IH]; [cbn; lia|]. inversion Hl as [|? ? Hx Hl']; subst. cbn [filter].
  destruct (Nat.eq_dec x i) as [->|Hn].
  - assert (length (filter p l) <= length (filter q l)).
    { apply filter_imp_length. intros y Hy. apply H; [now right|]. intros ->. contradiction. }
    destruct (p i), (q i); cbn; lia.
  - assert (length (filter p l) <= S (length (filter q l))) by (apply IH; [exact Hl'|]; intros y Hy; apply H; now right).
    destruct (p x) eqn:E; [rewrite (H x (or_introl eq_refl) Hn E); cbn; lia|]. destruct (q x); cbn; lia.
Qed.
Lemma filter_two (p : nat -> bool) l i j : In i l -> In j l -> p i = true -> p j = true -> length (filter p l) <= 1 -> i = j.
Proof.
  intros Hi Hj Pi Pj Hl. assert (Ii : In i (filter p l)) by (apply filter_In; auto). assert (Ij : In j (filter p l)) by (apply filter_In; auto).
  destruct (filter p l) as [|x [|y r]]; [easy| |cbn in Hl; lia]. destruct Ii as [<-|[]], Ij as [<-|[]]. reflexivity.
Qed.
Lemma set_at_same {A} (f : nat -> A) i v : set_at f i v i = v.
Proof. unfold set_at. now rewrite Nat.eqb_refl. Qed.
Lemma set_at_other {A} (f : nat -> A) i v j : j <> i -> set_at f i v j = f j.
Proof. unfold set_at. intros H. apply Nat.eqb_neq in H. now rewrite H. Qed.
Lemma upd_same f p v : upd f p v p = v.
Proof. unfold upd. now rewrite streq_refl. Qed.
Lemma upd_other f p v q : q <> p -> upd f p v q = f q.
Proof. unfold upd. intros H. apply streq_false in H. now rewrite H. Qed.

Section Workers.
Variable process : str -> str -> outcome.
Variable fixed : option (str -> option str).
Variable tasks : list task.
Variable workers : nat.
Variable shared : bool.
Variable f0 : files.
Hypothesis Hapart : apart tasks.
Hypothesis Hsrc : sources_kept tasks.
Notation n := (length tasks).
Notation task_step := (task_step process fixed shared).
Notation step := (step process fixed tasks workers shared).
Notation steps := (steps process fixed tasks workers shared).
Notation stack_of := (stack_of shared).
Notation running := (running tasks).

(** nothing of another task can be on the exit stack of a task *)
Definition isolated : Prop := shared = false \/ fixed = None \/ workers <= 1.
(** what the task has to do *)
Definition wanted (t : task) : outcome := outcome_of process fixed t f0.
Definition target (t : task) : option (str * str) := save_target t (wanted t).
Definition result (t : task) (p : str) : option str :=
  match target t with Some (q, c) => if streq p q then Some c else f0 p | None => f0 p end.
Definition untouched (t : task) (w : world) : Prop := forall p, In p (paths t) -> w_files w p = f0 p.

Definition local (i : nat) (t : task) (w : world) : Prop :=
  match w_place w i with
  | Idle | Start => untouched t w
  | Load => untouched t w /\
      match fixed with
      | None => True
      | Some fx => exists c c', f0 (tk_src t) = Some c /\ fx c = Some c' /\ (w_tmp w i = Some c' \/ ~ isolated /\ w_tmp w i = None)
      end
  | Save p c => untouched t w /\ target t = Some (p, c)
  | Writing p d r => target t = Some (p, d ++ r) /\ w_files w p = Some d /\ (forall q, In q (paths t) -> q <> p -> w_files w q = f0 q)
  | Close true | Done true => untouched t w /\ (is_fail (wanted t) = true \/ ~ isolated)
  | Close false | Done false => is_fail (wanted t) = false /\ forall p, In p (paths t) -> w_files w p = result t p
  end.
Definition working (p : place) : bool := match p with Idle | Start | Done _ => false | _ => true end.
Record inv (w : world) : Prop := mkInv {
  inv_frame : forall p, (forall t, In t tasks -> ~ In p (paths t)) -> w_files w p = f0 p;
  inv_queue : exists k, k <= n /\ w_queue w = seq k (n - k) /\ forall i, i < n -> (w_place w i = Idle <-> k <= i);
  inv_running : running w <= workers;
  inv_stack : forall s j, In j (w_stack w s) -> j < n /\ stack_of j = s /\ working (w_place w j) = true;
  inv_nofix : fixed = None -> forall s, w_stack w s = [];
  inv_local : forall i t, nth_error tasks i = Some t -> local i t w }.

Lemma target_path t p c : target t = Some (p, c) -> In p (paths t) /\ is_fail (wanted t) = false.
Proof.
  unfold target, save_target, paths. destruct (wanted t) as [x|x|]; [intros [= <- <-]; cbn; auto| |discriminate].
  destruct (tk_failed t) as [q|]; [|discriminate]. cbn. intros [= <- <-]. auto.
Qed.
Lemma nth_lt i t : nth_error tasks i = Some t -> i < n.
Proof. intros H. apply nth_error_Some. congruence. Qed.
Lemma source_kept w t : inv w -> In t tasks -> w_files w (tk_src t) = f0 (tk_src t).
Proof. intros H Ht. apply (inv_frame w H). intros t' Ht'. now apply Hsrc. Qed.
(** what concerns a task is not changed by the others *)
Lemma local_other i j t w w' : i <> j -> nth_error tasks i = Some t ->
  w_place w' i = w_place w i -> (forall p, In p (paths t) -> w_files w' p = w_files w p) -> w_tmp w' i = w_tmp w i ->
  local i t w -> local i t w'.
Proof.
  intros Hij Hi Hp Hf Ht. unfold local, untouched. rewrite Hp.
  assert (U : (forall p, In p (paths t) -> w_files w p = f0 p) -> forall p, In p (paths t) -> w_files w' p = f0 p) by (intros U p Hin; rewrite Hf; auto).
  destruct (w_place w i) as [| | |p c|p d r|[]|[]]; auto.
  - rewrite Ht. intros [H1 H2]. auto.
  - intros [H1 H2]. auto.
  - intros (H1 & H2 & H3). split; [exact H1|]. destruct (target_path _ _ _ H1) as [Hin _]. split; [rewrite Hf; auto|]. intros q Hq Hn. rewrite Hf; auto.
  - intros [H1 H2]. auto.
  - intros [H1 H2]. split; [exact H1|]. intros q Hq. rewrite Hf; auto.
  - intros [H1 H2]. auto.
  - intros [H1 H2]. split; [exact H1|]. intros q Hq. rewrite Hf; auto.
Qed.
Lemma running_move w i p : (active p = true -> active (w_place w i) = true) ->
  length (filter (fun j => active (set_at (w_place w) i p j)) (seq 0 n)) <= running w.
Proof.
  intros H. apply filter_imp_length. intros j _. destruct (Nat.eq_dec j i) as [->|Hn]; [rewrite set_at_same; exact H|now rewrite set_at_other].
Qed.
Lemma queue_move w i p : inv w -> i < n -> w_place w i <> Idle -> p <> Idle ->
  exists k, k <= n /\ w_queue w = seq k (n - k) /\ forall j, j < n -> (set_at (w_place w) i p j = Idle <-> k <= j).
Proof.
  intros H Hi Hpi Hp. destruct (inv_queue w H) as (k & H1 & H2 & H3). exists k. split; [exact H1|]. split; [exact H2|].
  intros j Hj. destruct (Nat.eq_dec j i) as [->|Hn]; [|rewrite set_at_other by assumption; now apply H3].
  rewrite set_at_same. specialize (H3 i Hj). tauto.
Qed.
Lemma stack_move w i p : inv w -> (working p = true \/ working (w_place w i) = false \/ w_stack w (stack_of i) = []) ->
  forall s j, In j (w_stack w s) -> j < n /\ stack_of j = s /\ working (set_at (w_place w) i p j) = true.
Proof.
  intros H Hp s j Hj. destruct (inv_stack w H s j Hj) as (H1 & H2 & H3). split; [exact H1|]. split; [exact H2|].
  destruct (Nat.eq_dec j i) as [->|Hn]; [|now rewrite set_at_other]. rewrite set_at_same. destruct Hp as [Hp|[Hp|Hp]]; [exact Hp|congruence|].
  subst s. rewrite Hp in Hj. destruct Hj.
Qed.
(** moving on without touching files *)
Lemma inv_move w i t p : inv w -> nth_error tasks i = Some t -> active (w_place w i) = true -> p <> Idle ->
  (working p = true \/ working (w_place w i) = false \/ w_stack w (stack_of i) = []) ->
  local i t (move w i p) -> inv (move w i p).
Proof.
  intros H Hi Ha Hp Hs Hl. assert (In' : i < n) by (eapply nth_lt; exact Hi). constructor; cbn [move w_files w_tmp w_stack w_queue w_place].
  - apply (inv_frame w H).
  - apply queue_move; auto. intros E. rewrite E in Ha. discriminate.
  - eapply Nat.le_trans; [apply running_move; auto|apply (inv_running w H)].
  - now apply stack_move.
  - apply (inv_nofix w H).
  - intros j t' Hj. destruct (Nat.eq_dec j i) as [->|Hn]; [assert (t' = t) as -> by congruence; exact Hl|].
    apply (local_other j i t' w); auto; [|now apply (inv_local w H)]. cbn. now apply set_at_other.
Qed.
(** moving on and writing a file *)
Lemma inv_write w i t p q v : inv w -> nth_error tasks i = Some t -> working (w_place w i) = true -> working p = true -> In q (paths t) ->
  let w' := mkWorld (upd (w_files w) q v) (w_tmp w) (w_stack w) (w_queue w) (set_at (w_place w) i p) in
  local i t w' -> inv w'.
Proof.
  intros H Hi Ha Hp Hq w' Hl. assert (In' : i < n) by (eapply nth_lt; exact Hi).
  assert (Hact : active (w_place w i) = true) by (destruct (w_place w i); try discriminate; reflexivity).
  assert (Hp' : p <> Idle) by (destruct p; discriminate).
  constructor; subst w'; cbn [w_files w_tmp w_stack w_queue w_place].
  - intros x Hx. rewrite upd_other; [now apply (inv_frame w H)|]. intros ->. apply nth_error_In in Hi. now apply (Hx t).
  - apply queue_move; auto. intros E. rewrite E in Ha. discriminate.
  - eapply Nat.le_trans; [apply running_move; auto|apply (inv_running w H)].
  - apply stack_move; auto.
  - apply (inv_nofix w H).
  - intros j t' Hj. destruct (Nat.eq_dec j i) as [->|Hn]; [assert (t' = t) as -> by congruence; exact Hl|].
    apply (local_other j i t' w); auto; [| |now apply (inv_local w H)]; cbn.
    + now apply set_at_other.
    + intros x Hx. apply upd_other. intros ->. apply Hn. exact (Hapart j i t' t q Hj Hi Hx Hq).
Qed.
Lemma untouched_move t w i p : untouched t w -> untouched t (move w i p).
Proof. exact (fun H => H). Qed.
Lemma same_stack w i j : inv w -> i < n -> active (w_place w i) = true -> In j (w_stack w (stack_of i)) -> j <> i -> ~ isolated.
Proof.
  intros H Hi Ha Hj Hn [Hs|[Hf|Hw]].
  - destruct (inv_stack w H _ _ Hj) as (_ & E & _). unfold ModelPipeline.stack_of in E. rewrite Hs in E. contradiction.
  - rewrite (inv_nofix w H Hf) in Hj. destruct Hj.
  - destruct (inv_stack w H _ _ Hj) as (Hj' & _ & E). apply Hn.
    apply (filter_two (fun x => active (w_place w x)) (seq 0 n)); [apply in_seq; lia|apply in_seq; lia| |exact Ha|].
    + destruct (w_place w j); try discriminate; reflexivity.
    + eapply Nat.le_trans; [apply (inv_running w H)|exact Hw].
Qed.
Lemma inv_task w i t w' : inv w -> nth_error tasks i = Some t -> task_step i t w = Some w' -> inv w'.
Proof.
  intros H Hi. assert (In' : i < n) by (eapply nth_lt; exact Hi). pose proof (inv_local w H i t Hi) as L. unfold local in L.
  unfold ModelPipeline.task_step. assert (Ht : In t tasks) by (eapply nth_error_In; exact Hi).
  destruct (w_place w i) as [| | |p c|p d r|e|e] eqn:Ep; try discriminate.
  - (* Start *)
    pose proof (source_kept w t H Ht) as Hsk.
    destruct fixed as [fx|] eqn:Ef.
    2:{ intros [= <-]. apply (inv_move w i t); auto; [now rewrite Ep|discriminate|].
        unfold local. cbn [move w_place]. rewrite set_at_same, Ef. auto. }
    set (stack := set_at _ _ _).
    assert (G : forall tmp p, (p = Load \/ p = Close true) -> (forall j, j <> i -> tmp j = w_tmp w j) ->
       let w1 := mkWorld (w_files w) tmp stack (w_queue w) (set_at (w_place w) i p) in local i t w1 -> inv w1).
    { intros tmp p Hp Htmp w1 Hl. constructor; subst w1; cbn [w_files w_tmp w_stack w_queue w_place].
      - apply (inv_frame w H).
      - apply queue_move; auto; [rewrite Ep; discriminate|]. destruct Hp as [->| ->]; discriminate.
      - eapply Nat.le_trans; [apply running_move; rewrite Ep; auto|apply (inv_running w H)].
      - intros s j Hj. assert (Wp : working p = true) by (destruct Hp as [->| ->]; reflexivity).
        assert (Old : In j (w_stack w s) -> j < n /\ stack_of j = s /\ working (set_at (w_place w) i p j) = true) by (intros K; apply stack_move; auto).
        unfold stack in Hj. destruct (Nat.eq_dec s (stack_of i)) as [->|Hs]; [|rewrite set_at_other in Hj by assumption; auto].
        rewrite set_at_same in Hj. destruct Hj as [<-|Hj]; [|auto]. rewrite set_at_same. auto.
      - congruence.
      - intros j t' Hj. destruct (Nat.eq_dec j i) as [->|Hn]; [assert (t' = t) as -> by congruence; exact Hl|].
        apply (local_other j i t' w); auto; [cbn; now apply set_at_other|now apply (inv_local w H)]. }
    rewrite Hsk. destruct (f0 (tk_src t)) as [c|] eqn:E0; [destruct (fx c) as [c'|] eqn:E1|]; intros [= <-].
    + apply G; [now left|intros j Hj; now apply set_at_other|]. unfold local. cbn [w_place w_tmp]. rewrite !set_at_same, Ef.
      split; [exact L|]. exists c, c'. auto.
    + apply G; [now right|auto|]. unfold local. cbn [w_place]. rewrite set_at_same. split; [exact L|]. left.
      unfold wanted, outcome_of, final_source. rewrite E0, Ef, E1. reflexivity.
    + apply G; [now right|auto|]. unfold local. cbn [w_place]. rewrite set_at_same. split; [exact L|]. left.
      unfold wanted, outcome_of. rewrite E0. reflexivity.
  - (* Load *)
    destruct L as [L1 L2].
    assert (R : forall x, (match fixed with None => w_files w (tk_src t) | Some _ => w_tmp w i end) = Some x -> wanted t = process (tk_src t) x).
    { intros x. unfold wanted, outcome_of, final_source. destruct fixed as [fx|].
      - destruct L2 as (c & c' & -> & -> & [->|[_ ->]]); congruence.
      - rewrite (source_kept w t H Ht). intros ->. reflexivity. }
    assert (F : (match fixed with None => w_files w (tk_src t) | Some _ => w_tmp w i end) = None -> is_fail (wanted t) = true \/ ~ isolated).
    { unfold wanted, outcome_of, final_source. destruct fixed as [fx|].
      - destruct L2 as (c & c' & _ & _ & [->|[K _]]); [discriminate|now right].
      - rewrite (source_kept w t H Ht). intros ->. now left. }
    destruct (match fixed with None => w_files w (tk_src t) | Some _ => w_tmp w i end) as [x|].
    2:{ intros [= <-]. apply (inv_move w i t); auto; [now rewrite Ep|discriminate|]. unfold local. cbn [move w_place]. rewrite set_at_same. auto. }
    specialize (R x eq_refl). clear F.
    assert (Fin : process (tk_src t) x = OFail -> inv (move w i (Close true))).
    { intros E. apply (inv_move w i t); auto; [now rewrite Ep|discriminate|]. unfold local. cbn [move w_place]. rewrite set_at_same.
      split; [exact L1|]. left. now rewrite R, E. }
    assert (Go : match save_target t (process (tk_src t) x) with
                 | Some (p, c') => inv (move w i (Save p c'))
                 | None => process (tk_src t) x <> OFail -> inv (move w i (Close false))
                 end).
    { destruct (save_target t (process (tk_src t) x)) as [[p c']|] eqn:Es.
      - apply (inv_move w i t); auto; [now rewrite Ep|discriminate|]. unfold local. cbn [move w_place]. rewrite set_at_same.
        split; [exact L1|]. unfold target. now rewrite R.
      - intros Hx. apply (inv_move w i t); auto; [now rewrite Ep|discriminate|]. unfold local. cbn [move w_place]. rewrite set_at_same.
        split; [rewrite R; destruct (process (tk_src t) x); [reflexivity|reflexivity|congruence]|].
        intros p Hp. unfold result, target. rewrite R, Es. now apply L1. }
    destruct (process (tk_src t) x) as [c|c|] eqn:Eo; [| |intros [= <-]; now apply Fin];
      (destruct (save_target t _) as [[p c']|]; intros [= <-]; [exact Go|now apply Go]).
  - (* Save *)
    destruct L as [L1 L2]. destruct (target_path _ _ _ L2) as [Hin _]. intros [= <-]. apply (inv_write w i t); auto; [now rewrite Ep|].
    unfold local. cbn [w_place w_files]. rewrite set_at_same. split; [exact L2|]. split; [apply upd_same|].
    intros q Hq Hn. rewrite upd_other by assumption. now apply L1.
  - (* Writing *)
    destruct L as (L1 & L2 & L3). destruct (target_path _ _ _ L1) as [Hin Hnf]. destruct r as [|x r]; intros [= <-].
    + apply (inv_move w i t); auto; [now rewrite Ep|discriminate|]. unfold local. cbn [move w_place w_files]. rewrite set_at_same.
      split; [exact Hnf|]. intros q Hq. unfold result. rewrite L1, app_nil_r. destruct (streq q p) eqn:Eq.
      * apply streq_true in Eq as ->. exact L2.
      * apply streq_false in Eq. now apply L3.
    + apply (inv_write w i t); auto; [now rewrite Ep|]. unfold local. cbn [w_place w_files]. rewrite set_at_same.
      split; [rewrite <- app_assoc; exact L1|]. split; [apply upd_same|]. intros q Hq Hn. rewrite upd_other by assumption. now apply L3.
  - (* Close *)
    destruct (w_stack w (stack_of i)) as [|j s] eqn:Es; intros [= <-].
    + apply (inv_move w i t); auto; [now rewrite Ep|discriminate|]. unfold local. cbn [move w_place w_files]. rewrite set_at_same. destruct e; exact L.
    + assert (Hs : forall s' k, In k (set_at (w_stack w) (stack_of i) s s') -> In k (w_stack w s')).
      { intros s' k. destruct (Nat.eq_dec s' (stack_of i)) as [->|Hn]; [|now rewrite set_at_other]. rewrite set_at_same, Es. now right. }
      constructor; cbn [w_files w_tmp w_stack w_queue w_place].
      * apply (inv_frame w H).
      * apply (inv_queue w H).
      * apply (inv_running w H).
      * intros s' k Hk. apply (inv_stack w H). now apply Hs.
      * intros Hf s'. pose proof (inv_nofix w H Hf (stack_of i)) as K. rewrite Es in K. discriminate.
      * intros k t' Hk. destruct (Nat.eq_dec k j) as [->|Hn].
        2:{ apply (local_other k j t' w); auto; [cbn; now apply set_at_other|now apply (inv_local w H)]. }
        pose proof (inv_local w H j t' Hk) as Lj. unfold local in *. cbn [w_place w_files w_tmp].
        destruct (w_place w j) as [| | |p c|p d r|[]|[]] eqn:Epj; auto.
        destruct Lj as [Lj1 Lj2]. split; [exact Lj1|]. destruct fixed as [fx|] eqn:Ef; [|exact I].
        destruct Lj2 as (c & c' & K1 & K2 & _). exists c, c'. split; [exact K1|]. split; [exact K2|]. right. rewrite set_at_same. split; [|reflexivity].
        apply (same_stack w i j H In'); [now rewrite Ep|rewrite Es; now left|]. intros ->. congruence.
Qed.
Lemma inv_step w w' : inv w -> step w w' -> inv w'.
Proof.
  intros H S. destruct S as [i q w Hq Hr|i t w w' Hi Hs]; [|eapply inv_task; eassumption].
  destruct (inv_queue w H) as (k & H1 & H2 & H3). rewrite Hq in H2.
  destruct (n - k) as [|m] eqn:Em; [discriminate|]. cbn [seq] in H2. injection H2 as -> Hq'.
  assert (Hk : k < n) by lia. assert (Pk : w_place w k = Idle) by (now apply H3).
  assert (Lk : forall t, nth_error tasks k = Some t -> local k t (mkWorld (w_files w) (w_tmp w) (w_stack w) q (set_at (w_place w) k Start))).
  { intros t Ht. pose proof (inv_local w H k t Ht) as L. unfold local in *. cbn [w_place]. rewrite set_at_same. rewrite Pk in L. exact L. }
  constructor; cbn [w_files w_tmp w_stack w_queue w_place].
  - apply (inv_frame w H).
  - exists (S k). split; [lia|]. split; [rewrite Hq'; f_equal; lia|]. intros i Hi. destruct (Nat.eq_dec i k) as [->|Hn].
    + rewrite set_at_same. split; [discriminate|lia].
    + rewrite set_at_other by assumption. rewrite (H3 i Hi). lia.
  - unfold running, ModelPipeline.running in *. cbn [w_place].
    eapply Nat.le_trans; [apply (filter_one_more _ (fun i => active (w_place w i)) k); [apply seq_NoDup|]|exact Hr].
    intros x _ Hx. now rewrite set_at_other.
  - apply stack_move; [exact H|]. right. left. now rewrite Pk.
  - apply (inv_nofix w H).
  - intros j t' Hj. destruct (Nat.eq_dec j k) as [->|Hn]; [now apply Lk|].
    apply (local_other j k t' w); auto; [cbn; now apply set_at_other|now apply (inv_local w H)].
Qed.
Lemma inv_initial : inv (initial tasks f0).
Proof.
  constructor; cbn [initial w_files w_tmp w_stack w_queue w_place]; auto.
  - exists 0. split; [lia|]. split; [f_equal; lia|]. intros i Hi. split; [lia|reflexivity].
  - unfold running. cbn. induction (seq 0 n) as [|x l IH]; [cbn; lia|exact IH].
  - intros s j [].
  - intros i t _. unfold local. cbn. intros p _. reflexivity.
Qed.
Lemma inv_steps k w : steps k (initial tasks f0) w -> inv w.
Proof.
  intros H. remember (initial tasks f0) as w0 eqn:E. induction H as [w|k w w1 w2 H IH S]; [subst; apply inv_initial|]. subst. eapply inv_step; [apply IH; reflexivity|exact S].
Qed.

(** *** Every execution ends *)
Definition bound (t : task) : nat := 7 + match target t with Some (_, c) => length c | None => 0 end.
Definition left_over (t : task) (p : place) : nat :=
  match p with
  | Idle => bound t
  | Start => bound t - 1
  | Load => bound t - 3
  | Save _ c => 3 + length c
  | Writing _ _ r => 2 + length r
  | Close _ => 1
  | Done _ => 0
  end.
Fixpoint sum (l : list nat) : nat := match l with [] => 0 | x :: l' => x + sum l' end.
Definition weight (w : world) (i : nat) : nat :=
  match nth_error tasks i with Some t => left_over t (w_place w i) | None => 0 end.
Definition measure (w : world) : nat := sum (map (weight w) (seq 0 n)) + sum (map (fun s => length (w_stack w s)) (seq 0 n)).

Lemma sum_one (g h : nat -> nat) i l : NoDup l -> In i l -> (forall x, x <> i -> g x = h x) -> sum (map g l) + h i = sum (map h l) + g i.
Proof.
  intros Hl Hi H. induction l as [|x l IH]; [destruct Hi|]. inversion Hl as [|? ? Hx Hl']; subst. cbn [map sum].
  destruct (Nat.eq_dec x i) as [->|Hn].
  - assert (map g l = map h l) as -> by (apply map_ext_in; intros y Hy; apply H; intros ->; contradiction). lia.
  - destruct Hi as [->|Hi]; [contradiction|]. specialize (IH Hl' Hi). rewrite (H x Hn). lia.
Qed.
Lemma sum_set (g h : nat -> nat) i : i < n -> (forall x, x <> i -> g x = h x) -> sum (map g (seq 0 n)) + h i = sum (map h (seq 0 n)) + g i.
Proof. intros Hi. apply sum_one; [apply seq_NoDup|apply in_seq; lia]. Qed.
Lemma stack_lt i : i < n -> stack_of i < n.
Proof. unfold ModelPipeline.stack_of. destruct shared; lia. Qed.
Lemma measure_step w w' : inv w -> step w w' -> measure w' < measure w.
Proof.
  intros H S. pose proof (inv_step w w' H S) as H'. destruct S as [i q w Hq Hr|i t w w' Hi Hs].
  - assert (Hin : i < n /\ w_place w i = Idle).
    { destruct (inv_queue w H) as (k & H1 & H2 & H3). rewrite Hq in H2. destruct (n - k) as [|m] eqn:Em; [discriminate|]. cbn [seq] in H2.
      injection H2 as -> _. split; [lia|]. apply H3; lia. }
    destruct Hin as [Hin Pi]. unfold measure. cbn [w_stack]. destruct (nth_error tasks i) as [t|] eqn:Hi; [|apply nth_error_None in Hi; lia].
    match goal with |- sum (map ?g _) + _ < _ => assert (E := sum_set g (weight w) i Hin) end.
    assert (E1 : weight w i = bound t) by (unfold weight; rewrite Hi, Pi; reflexivity). rewrite E1 in E.
    assert (W : forall f tmp st qu p, weight (mkWorld f tmp st qu (set_at (w_place w) i p)) i = left_over t p).
    { intros. unfold weight. cbn [w_place]. now rewrite Hi, set_at_same. }
    rewrite W in E. cbn [left_over] in E.
    specialize (E ltac:(intros x Hx; unfold weight; cbn [w_place]; now rewrite set_at_other)). unfold bound in E. lia.
  - assert (Hin : i < n) by (eapply nth_lt; exact Hi).
    assert (W : forall f tmp st qu p, weight (mkWorld f tmp st qu (set_at (w_place w) i p)) i = left_over t p).
    { intros. unfold weight. cbn [w_place]. now rewrite Hi, set_at_same. }
    assert (V : weight w i = left_over t (w_place w i)) by (unfold weight; now rewrite Hi).
    assert (M : forall f tmp qu p, left_over t p < left_over t (w_place w i) -> measure (mkWorld f tmp (w_stack w) qu (set_at (w_place w) i p)) < measure w).
    { intros f tmp qu p Hp. unfold measure. cbn [w_stack].
      match goal with |- sum (map ?g _) + _ < _ => assert (E := sum_set g (weight w) i Hin) end.
      rewrite W, V in E. specialize (E ltac:(intros x Hx; unfold weight; cbn [w_place]; now rewrite set_at_other)). lia. }
    pose proof (inv_local w H i t Hi) as L. pose proof (inv_local w' H' i t Hi) as L'. unfold local in L, L'. unfold ModelPipeline.task_step in Hs.
    destruct (w_place w i) as [| | |p c|p d r|e|e] eqn:Ep; try discriminate.
    + destruct fixed as [fx|]; [|injection Hs as <-; apply M; unfold bound; cbn [left_over]; unfold bound; lia].
      assert (K : forall f tmp qu p, left_over t p + 1 < left_over t Start ->
        measure (mkWorld f tmp (set_at (w_stack w) (stack_of i) (i :: w_stack w (stack_of i))) qu (set_at (w_place w) i p)) < measure w).
      { intros f tmp qu p Hp. unfold measure. cbn [w_stack].
        match goal with |- sum (map ?g _) + sum (map ?h _) < _ => assert (E := sum_set g (weight w) i Hin); assert (E2 := sum_set h (fun s => length (w_stack w s)) (stack_of i) (stack_lt i Hin)) end.
        rewrite W, V in E. specialize (E ltac:(intros x Hx; unfold weight; cbn [w_place]; now rewrite set_at_other)).
        cbn beta in E2. rewrite set_at_same in E2. specialize (E2 ltac:(intros x Hx; now rewrite set_at_other)). cbn [length] in E2. lia. }
      destruct (match w_files w (tk_src t) with Some c => fx c | None => None end) as [c|]; injection Hs as <-; apply K; cbn [left_over]; unfold bound; lia.
    + assert (C : forall e, measure (move w i (Close e)) < measure w) by (intros e; apply M; cbn [left_over]; unfold bound; lia).
      assert (Sv : forall p c, Some (move w i (Save p c)) = Some w' -> measure w' < measure w).
      { intros p c [= <-]. cbn [move w_place] in L'. rewrite set_at_same in L'. destruct L' as [_ L']. apply M. cbn [left_over]. unfold bound. rewrite L'. lia. }
      destruct (match fixed with None => w_files w (tk_src t) | Some _ => w_tmp w i end) as [c|]; [|injection Hs as <-; apply C].
      destruct (process (tk_src t) c) as [c1|c1|]; [| |injection Hs as <-; apply C];
        (destruct (save_target t _) as [[p c2]|]; [exact (Sv _ _ Hs)|injection Hs as <-; apply C]).
    + injection Hs as <-. apply M. cbn [left_over]. lia.
    + destruct r as [|x r]; injection Hs as <-; apply M; cbn [left_over length]; lia.
    + destruct (w_stack w (stack_of i)) as [|j s] eqn:Es; injection Hs as <-; [apply M; cbn [left_over]; lia|].
      unfold measure. cbn [w_stack].
      match goal with |- _ + sum (map ?h _) < _ => assert (E2 := sum_set h (fun s => length (w_stack w s)) (stack_of i) (stack_lt i Hin)) end.
      cbn beta in E2. rewrite set_at_same, Es in E2. specialize (E2 ltac:(intros x Hx; now rewrite set_at_other)). cbn [length] in E2. unfold weight. cbn [w_place]. lia.
Qed.
Theorem C43_ends k w : steps k (initial tasks f0) w -> k <= sum (map bound tasks).
Proof.
  assert (E : measure (initial tasks f0) = sum (map bound tasks)).
  { unfold measure. cbn [initial w_stack]. assert (Z : forall l : list nat, sum (map (fun _ => length (@nil nat)) l) = 0) by (induction l; cbn; auto).
    rewrite Z, Nat.add_0_r. f_equal. unfold weight. cbn [initial w_place]. clear. induction tasks as [|t l IH]; [reflexivity|].
    cbn [length seq map nth_error left_over]. f_equal. rewrite <- seq_shift, map_map. exact IH. }
  rewrite <- E. intros H. cut (k + measure w <= measure (initial tasks f0)); [lia|].
  remember (initial tasks f0) as w0 eqn:E0. induction H as [w|k w w1 w2 H IH S]; [lia|]. subst. specialize (IH eq_refl E).
  pose proof (measure_step w1 w2 (inv_steps k w1 H) S). lia.
Qed.

(** *** Nothing waits for ever *)
Lemma task_step_some i t w : active (w_place w i) = true -> exists w', task_step i t w = Some w'.
Proof.
  unfold ModelPipeline.task_step. destruct (w_place w i) as [| | |p c|p d r|e|e]; try discriminate; intros _.
  - destruct fixed as [fx|]; [|eauto]. destruct (match w_files w (tk_src t) with Some c => fx c | None => None end); eauto.
  - destruct (match fixed with None => w_files w (tk_src t) | Some _ => w_tmp w i end) as [c|]; [|eauto].
    destruct (process (tk_src t) c); [| |eauto]; (destruct (save_target t _) as [[p c2]|]; eauto).
  - eauto.
  - destruct r; eauto.
  - destruct (w_stack w (stack_of i)); eauto.
Qed.
Theorem C43_progress k w : 0 < workers -> steps k (initial tasks f0) w -> finished tasks w \/ exists w', step w w'.
Proof.
  intros Hw Hk. pose proof (inv_steps k w Hk) as H.
  destruct (filter (fun i => active (w_place w i)) (seq 0 n)) as [|i r] eqn:Ea.
  2:{ right. assert (Hi : In i (i :: r)) by (now left). rewrite <- Ea in Hi. apply filter_In in Hi as [Hi Ai]. apply in_seq in Hi.
      destruct (nth_error tasks i) as [t|] eqn:Et; [|apply nth_error_None in Et; lia].
      destruct (task_step_some i t w Ai) as [w' E]. exists w'. econstructor; eassumption. }
  destruct (inv_queue w H) as (j & H1 & H2 & H3). destruct (n - j) as [|m] eqn:Em.
  - left. intros i Hi. destruct (active (w_place w i)) eqn:Ai.
    + assert (K : In i (filter (fun i => active (w_place w i)) (seq 0 n))) by (apply filter_In; split; [apply in_seq; lia|exact Ai]). rewrite Ea in K. destruct K.
    + destruct (w_place w i) as [| | |p c|p d r|e|e] eqn:Ep; try discriminate; [|eauto]. apply H3 in Ep; lia.
  - right. cbn [seq] in H2. eexists. eapply step_take; [exact H2|]. unfold ModelPipeline.running. rewrite Ea. exact Hw.
Qed.

(** *** One after the other *)
Lemma apart_app l l' : apart (l ++ l') -> apart l.
Proof.
  intros H i j t t' p Hi Hj. apply (H i j t t' p); rewrite nth_error_app1; auto; apply nth_error_Some; congruence.
Qed.
Lemma sequential_gen ts : apart ts -> sources_kept ts ->
  snd (auto_annotate_list process fixed ts f0) = map (fun t => is_fail (wanted t)) ts /\
  (forall p, (forall t, In t ts -> ~ In p (paths t)) -> fst (auto_annotate_list process fixed ts f0) p = f0 p) /\
  (forall t p, In t ts -> In p (paths t) -> fst (auto_annotate_list process fixed ts f0) p = result t p).
Proof.
  induction ts as [|t ts IH] using rev_ind; intros Ha Hs; [cbn; split; [reflexivity|]; split; [reflexivity|]; intros t p []|].
  destruct IH as (I1 & I2 & I3); [eapply apart_app; exact Ha|intros x y Hx Hy; apply Hs; apply in_or_app; auto|].
  unfold auto_annotate_list in *. rewrite fold_left_app, map_app. cbn [fold_left map].
  destruct (fold_left _ ts (f0, [])) as [f es]. cbn [fst snd] in *. unfold auto_annotate.
  assert (Ew : outcome_of process fixed t f = wanted t).
  { unfold wanted, outcome_of. rewrite I2; [reflexivity|]. intros t' Ht'. apply Hs; apply in_or_app; cbn; auto. }
  rewrite Ew. cbn [fst snd]. split; [rewrite I1; destruct (wanted t); reflexivity|].
  assert (D : forall t' p, In t' ts -> In p (paths t') -> ~ In p (paths t)).
  { intros t' p Ht' Hp Hq. apply In_nth_error in Ht' as [i Hi]. assert (Hl : i < length ts) by (apply nth_error_Some; congruence).
    assert (i = length ts); [|lia]. apply (Ha i (length ts) t' t p); [now rewrite nth_error_app1|now rewrite nth_error_app2, Nat.sub_diag by lia|exact Hp|exact Hq]. }
  split.
  - intros p Hp. assert (P1 : f p = f0 p) by (apply I2; intros t' Ht'; apply Hp; apply in_or_app; auto).
    assert (P2 : ~ In p (paths t)) by (apply Hp; apply in_or_app; cbn; auto).
    destruct (save_target t (wanted t)) as [[q c]|] eqn:Et; [|exact P1]. rewrite upd_other; [exact P1|]. intros ->.
    apply P2. eapply target_path. exact Et.
  - intros t' p Ht' Hp. apply in_app_or in Ht' as [Ht'|[<-|[]]].
    + rewrite <- (I3 t' p Ht' Hp). destruct (save_target t (wanted t)) as [[q c]|] eqn:Et; [|reflexivity]. apply upd_other. intros ->.
      apply (D t' q Ht' Hp). eapply target_path. exact Et.
    + assert (P : f p = f0 p).
      { apply I2. intros t' Ht' Hq. now apply (D t' p Ht' Hq). }
      unfold result, target. destruct (save_target t (wanted t)) as [[q c]|]; [|exact P]. destruct (streq p q) eqn:Eq.
      * apply streq_true in Eq as ->. apply upd_same.
      * apply streq_false in Eq. rewrite upd_other by assumption. exact P.
Qed.
Definition sequential : files * list bool := auto_annotate_list process fixed tasks f0.

(** a file is one of a task or of none *)
Lemma path_dec p : (exists i t, nth_error tasks i = Some t /\ In p (paths t)) \/ forall t, In t tasks -> ~ In p (paths t).
Proof.
  destruct (existsb (fun t => existsb (streq p) (paths t)) tasks) eqn:E.
  - left. apply existsb_exists in E as (t & Ht & E). apply existsb_exists in E as (q & Hq & E). apply streq_true in E as ->.
    apply In_nth_error in Ht as [i Hi]. eauto.
  - right. intros t Ht Hp. assert (K : existsb (fun t => existsb (streq p) (paths t)) tasks = true); [|congruence].
    apply existsb_exists. exists t. split; [exact Ht|]. apply existsb_exists. exists p. split; [exact Hp|apply streq_refl].
Qed.

(** Without any assumption about the workers: each task has done what it would have done
    alone, or has failed and changed nothing; other files are as before. *)
Theorem C43_safe k w i t : steps k (initial tasks f0) w -> finished tasks w -> nth_error tasks i = Some t ->
  (w_place w i = Done true /\ forall p, In p (paths t) -> w_files w p = f0 p) \/
  (w_place w i = Done false /\ nth_error (snd sequential) i = Some false /\ forall p, In p (paths t) -> w_files w p = fst sequential p).
Proof.
  intros Hk Hf Hi. pose proof (inv_steps k w Hk) as H. pose proof (inv_local w H i t Hi) as L. unfold local in L.
  destruct (Hf i (nth_lt i t Hi)) as [e E]. rewrite E in *. destruct (sequential_gen tasks Hapart Hsrc) as (S1 & _ & S3).
  destruct e; [left; split; [reflexivity|apply L]|]. right. split; [reflexivity|]. destruct L as [L1 L2]. unfold sequential. rewrite S1, nth_error_map, Hi. cbn [option_map].
  split; [now rewrite L1|]. intros p Hp. rewrite L2 by assumption. symmetry. apply S3; [eapply nth_error_In; exact Hi|exact Hp].
Qed.
Theorem C43_others k w p : steps k (initial tasks f0) w -> (forall t, In t tasks -> ~ In p (paths t)) -> w_files w p = f0 p.
Proof. intros Hk. apply (inv_frame w (inv_steps k w Hk)). Qed.
(** A finished run leaves the files, and the failures, of the sequential run. *)
Theorem C43_isolated k w : isolated -> steps k (initial tasks f0) w -> finished tasks w ->
  same_files (w_files w) (fst sequential) /\
  forall i t, nth_error tasks i = Some t -> exists e, w_place w i = Done e /\ nth_error (snd sequential) i = Some e.
Proof.
  intros Hiso Hk Hf. pose proof (inv_steps k w Hk) as H. destruct (sequential_gen tasks Hapart Hsrc) as (S1 & S2 & S3).
  assert (P : forall i t, nth_error tasks i = Some t ->
    (exists e, w_place w i = Done e /\ nth_error (snd sequential) i = Some e) /\ forall p, In p (paths t) -> w_files w p = fst sequential p).
  { intros i t Hi. destruct (C43_safe k w i t Hk Hf Hi) as [[E U]|[E [U V]]]; [|eauto].
    pose proof (inv_local w H i t Hi) as L. unfold local in L. rewrite E in *. destruct L as [_ [L|L]]; [|contradiction].
    split; [exists true; split; [reflexivity|]; unfold sequential; rewrite S1, nth_error_map, Hi; cbn; now rewrite L|].
    intros p Hp. rewrite (U p Hp). unfold sequential. rewrite (S3 t p); [|eapply nth_error_In; exact Hi|exact Hp].
    unfold result, target. destruct (wanted t); try discriminate. reflexivity. }
  split; [|intros i t Hi; destruct (P i t Hi); assumption]. intros p. destruct (path_dec p) as [(i & t & Hi & Hp)|Hp].
  - apply (P i t Hi). exact Hp.
  - unfold sequential. rewrite S2 by assumption. now apply (inv_frame w H).
Qed.
(** C45: the run fails exactly if errors are not skipped and a document fails by itself. *)
Theorem C45_run k w skip : isolated -> steps k (initial tasks f0) w -> finished tasks w ->
  run_fails tasks skip w = negb skip && existsb (fun t => is_fail (outcome_of process fixed t f0)) tasks.
Proof.
  intros Hiso Hk Hf. destruct (C43_isolated k w Hiso Hk Hf) as [_ P]. destruct (sequential_gen tasks Hapart Hsrc) as (S1 & _ & _).
  unfold run_fails. f_equal. apply Bool.eq_iff_eq_true. rewrite !existsb_exists. split.
  - intros (i & Hi & E). apply in_seq in Hi. destruct (nth_error tasks i) as [t|] eqn:Et; [|apply nth_error_None in Et; lia].
    destruct (P i t Et) as (e & E1 & E2). rewrite E1 in E. subst e. unfold sequential in E2. rewrite S1, nth_error_map, Et in E2. injection E2 as E2.
    exists t. split; [eapply nth_error_In; exact Et|exact E2].
  - intros (t & Ht & E). apply In_nth_error in Ht as [i Hi]. exists i. pose proof (nth_lt i t Hi). split; [apply in_seq; lia|].
    destruct (P i t Hi) as (e & E1 & E2). rewrite E1. unfold sequential in E2. rewrite S1, nth_error_map, Hi in E2. injection E2 as <-. exact E.
Qed.
(** The outputs of a document do not depend on the others. *)
Theorem C45_alone k w i t : isolated -> steps k (initial tasks f0) w -> finished tasks w -> nth_error tasks i = Some t ->
  exists e, w_place w i = Done e /\ snd (auto_annotate process fixed t f0) = e /\
  forall p, In p (paths t) -> w_files w p = fst (auto_annotate process fixed t f0) p.
Proof.
  intros Hiso Hk Hf Hi. destruct (C43_isolated k w Hiso Hk Hf) as [F P]. destruct (P i t Hi) as (e & E1 & E2).
  destruct (sequential_gen tasks Hapart Hsrc) as (S1 & _ & S3). exists e. split; [exact E1|].
  unfold sequential in E2. rewrite S1, nth_error_map, Hi in E2. injection E2 as <-. split; [reflexivity|].
  intros p Hp. rewrite F. unfold sequential. rewrite (S3 t p); [|eapply nth_error_In; exact Hi|exact Hp].
  unfold auto_annotate, result, target, wanted. cbn [fst]. destruct (save_target t _) as [[q c]|]; reflexivity.
Qed.
(** *** The number of workers *)
Theorem C45_workers num srcs k w : workers = worker_count num srcs -> length srcs = n -> steps k (initial tasks f0) w ->
  running w <= num /\ (1 <= num -> finished tasks w \/ exists w', step w w').
Proof.
  intros Hw Hl Hk. pose proof (inv_running w (inv_steps k w Hk)) as R. unfold worker_count in Hw. split; [lia|]. intros Hn.
  destruct (Nat.eq_dec n 0) as [E|E]; [left; intros i Hi; lia|]. apply (C43_progress k w); [lia|exact Hk].
Qed.
End Workers.

(* ---------------------------------------------------------------- *)
(** ** C44: a run is killed and run again with resume *)
Definition plan (resume : bool) (dir : str) (fdir : ostr) (f : files) (srcs : list str) : list task :=
  map (task_for dir fdir) (remaining resume dir f srcs).
(** no output file is half written *)
Definition whole_outputs (tasks : list task) (w : world) : Prop :=
  forall i t d r, nth_error tasks i = Some t -> w_place w i = Writing (tk_out t) d r -> r = [].

Lemma remaining_sub resume dir f l : sub_list l (remaining resume dir f l).
Proof.
  destruct resume; [apply C42_resume|]. unfold remaining. destruct l as [|x l]; [constructor|]. cbv iota. 
  generalize (x :: l). intros r. induction r; constructor; assumption.
Qed.
Lemma sub_list_In {A} (l l' : list A) x : sub_list l l' -> In x l' -> In x l.
Proof. induction 1; cbn; intuition. Qed.
Lemma sub_list_NoDup {A B} (g : A -> B) (l l' : list A) : sub_list l l' -> NoDup (map g l) -> NoDup (map g l').
Proof.
  induction 1 as [|x l l' H IH|x l l' H IH]; cbn [map]; intros K; [exact K| |]; inversion K as [|? ? K1 K2]; subst; [|auto].
  constructor; [|auto]. intros K3. apply K1. apply in_map_iff in K3 as (y & E & Hy). apply in_map_iff. exists y. split; [exact E|]. eapply sub_list_In; eassumption.
Qed.
Section Crash.
Variable process : str -> str -> outcome.
Variable fixed : option (str -> option str).
Variable dir : str.
Variable fdir : ostr.
Variable srcs : list str.
Hypothesis Hnames : NoDup (map basename srcs).
Hypothesis Hkept : sources_kept (map (task_for dir fdir) srcs).
Lemma plan_apart resume f : apart (plan resume dir fdir f srcs).
Proof. apply C43_names. eapply sub_list_NoDup; [apply remaining_sub|exact Hnames]. Qed.
Lemma plan_in resume f t : In t (plan resume dir fdir f srcs) -> exists s, In s srcs /\ t = task_for dir fdir s.
Proof. unfold plan. intros H. apply in_map_iff in H as (s & <- & H). exists s. split; [eapply sub_list_In; [apply remaining_sub|exact H]|reflexivity]. Qed.
Lemma plan_kept resume f : sources_kept (plan resume dir fdir f srcs).
Proof.
  intros t t' Ht Ht'. apply plan_in in Ht as (s & Hs & ->). apply plan_in in Ht' as (s' & Hs' & ->). apply Hkept; now apply in_map.
Qed.
Lemma one_task s s' p : In s srcs -> In s' srcs -> In p (paths (task_for dir fdir s)) -> In p (paths (task_for dir fdir s')) -> s = s'.
Proof.
  intros Hs Hs' Hp Hp'. apply In_nth_error in Hs as [i Hi]. apply In_nth_error in Hs' as [j Hj].
  assert (i = j); [|subst; congruence]. apply (C43_names dir fdir srcs Hnames i j (task_for dir fdir s) (task_for dir fdir s') p); auto; rewrite nth_error_map; [now rewrite Hi|now rewrite Hj].
Qed.
(** The first run may be killed at any point where no output file is half written.  It is
    a resumed one itself, or starts without any of the outputs.  Then the second run, with
    resume, ends with the files of a run that was not killed.  The workers of the first run
    need not be isolated. *)
Theorem C44_partial resume f0 workers1 shared1 k1 w1 workers2 shared2 k2 w2 :
  resume = true \/ (forall s, In s srcs -> f0 (output_path dir s) = None) ->
  steps process fixed (plan resume dir fdir f0 srcs) workers1 shared1 k1 (initial (plan resume dir fdir f0 srcs) f0) w1 ->
  whole_outputs (plan resume dir fdir f0 srcs) w1 ->
  isolated fixed workers2 shared2 ->
  steps process fixed (plan true dir fdir (w_files w1) srcs) workers2 shared2 k2 (initial (plan true dir fdir (w_files w1) srcs) (w_files w1)) w2 ->
  finished (plan true dir fdir (w_files w1) srcs) w2 ->
  same_files (w_files w2) (fst (auto_annotate_list process fixed (plan resume dir fdir f0 srcs) f0)).
Proof.
  intros Hres H1 Hwhole Hiso H2 Hfin.
  set (ts1 := plan resume dir fdir f0 srcs) in *. set (f1 := w_files w1) in *. set (ts2 := plan true dir fdir f1 srcs) in *.
  assert (A1 : apart ts1) by apply plan_apart. assert (K1 : sources_kept ts1) by apply plan_kept.
  assert (A2 : apart ts2) by apply plan_apart. assert (K2 : sources_kept ts2) by apply plan_kept.
  pose proof (inv_steps process fixed ts1 workers1 shared1 f0 A1 K1 k1 w1 H1) as I1.
  destruct (C43_isolated process fixed ts2 workers2 shared2 f1 A2 K2 k2 w2 Hiso H2 Hfin) as [F _].
  destruct (sequential_gen process fixed f0 ts1 A1 K1) as (_ & S12 & S13).
  destruct (sequential_gen process fixed f1 ts2 A2 K2) as (_ & S22 & S23).
  intros p. rewrite F. unfold sequential.
  assert (M1 : forall s, In s srcs -> (In (task_for dir fdir s) ts1 <-> f0 (output_path dir s) = None)).
  { intros s Hs. subst ts1. unfold plan. rewrite in_map_iff. destruct resume.
    - split.
      + intros (s' & E & Hin). apply C42_resume in Hin as [Hin E']. rewrite (one_task s s' (output_path dir s)); auto; [now left|rewrite E; now left].
      + intros E. exists s. split; [reflexivity|]. apply C42_resume. auto.
    - destruct Hres as [Hres|Hres]; [discriminate|]. rewrite (Hres s Hs). split; [reflexivity|]. intros _. exists s. split; [reflexivity|].
      unfold remaining. destruct srcs; [destruct Hs|exact Hs]. }
  assert (M2 : forall s, In s srcs -> (In (task_for dir fdir s) ts2 <-> f1 (output_path dir s) = None)).
  { intros s Hs. subst ts2. unfold plan. rewrite in_map_iff. split.
    - intros (s' & E & Hin). apply C42_resume in Hin as [Hin E']. rewrite (one_task s s' (output_path dir s)); auto; [now left|rewrite E; now left].
    - intros E. exists s. split; [reflexivity|]. apply C42_resume. auto. }
  assert (Sub : forall t, In t ts2 -> In t ts1).
  { intros t Ht. destruct (plan_in _ _ _ Ht) as (s & Hs & ->). apply M1; [exact Hs|]. apply M2 in Ht; [|exact Hs].
    destruct (f0 (output_path dir s)) as [c|] eqn:E; [|reflexivity].
    (* the output was there and the first run has not processed it *)
    assert (f1 (output_path dir s) = f0 (output_path dir s)); [|congruence]. apply (inv_frame _ _ _ _ _ _ _ I1). intros t' Ht' Hp.
    destruct (plan_in _ _ _ Ht') as (s' & Hs' & ->). assert (s' = s) as -> by (eapply one_task; eauto; now left). apply M1 in Ht'; [congruence|exact Hs]. }
  assert (W : forall s, In s srcs -> outcome_of process fixed (task_for dir fdir s) f1 = outcome_of process fixed (task_for dir fdir s) f0).
  { intros s Hs. unfold outcome_of. cbn [task_for tk_src].
    assert (f1 s = f0 s) as ->; [|reflexivity]. apply (inv_frame _ _ _ _ _ _ _ I1). intros t' Ht' Hp.
    destruct (plan_in _ _ _ Ht') as (s' & Hs' & ->). apply (Hkept (task_for dir fdir s) (task_for dir fdir s')); [now apply in_map|now apply in_map|exact Hp]. }
  destruct (path_dec ts1 p) as [(i & t & Hi & Hp)|Hp].
  2:{ rewrite S12, S22; [|intros t Ht; apply Hp; now apply Sub|exact Hp]. now apply (inv_frame _ _ _ _ _ _ _ I1). }
  assert (Ht : In t ts1) by (eapply nth_error_In; exact Hi). rewrite (S13 t p Ht Hp). destruct (plan_in _ _ _ Ht) as (s & Hs & ->).
  set (t := task_for dir fdir s) in *. pose proof (inv_local _ _ _ _ _ _ _ I1 i t Hi) as L. unfold local in L. pose proof (proj1 (M1 s Hs) Ht) as E0.
  destruct (f1 (output_path dir s)) as [c|] eqn:E1.
  - (* not processed again *)
    assert (N : ~ In t ts2) by (intros N; apply M2 in N; [congruence|exact Hs]).
    rewrite S22. 2:{ intros t' Ht' Hp'. destruct (plan_in _ _ _ Ht') as (s' & Hs' & ->). apply N. replace t with (task_for dir fdir s'); [exact Ht'|]. unfold t. f_equal. eapply one_task; eauto. }
    assert (U : untouched f0 t w1 -> False) by (intros U; specialize (U (output_path dir s) (or_introl eq_refl)); fold f1 in U; congruence).
    destruct (w_place w1 i) as [| | |q b|q d r|[]|[]] eqn:Ep; try (exfalso; apply U; apply L).
    + destruct L as (L1 & L2 & L3). fold f1 in L2, L3. destruct (str_eq_dec (output_path dir s) q) as [<-|Hq].
      * pose proof (Hwhole i t d r Hi Ep) as ->. unfold result. rewrite L1, app_nil_r. destruct (streq p (output_path dir s)) eqn:Eq.
        -- apply streq_true in Eq as ->. exact L2.
        -- apply streq_false in Eq. now apply L3.
      * specialize (L3 (output_path dir s) (or_introl eq_refl) Hq). congruence.
    + now apply L.
    + now apply L.
  - (* processed again *)
    assert (Y : In t ts2) by (apply M2; [exact Hs|exact E1]). rewrite (S23 t p Y Hp). unfold result, target, wanted. pose proof (W s Hs) as Ws. fold t in Ws. rewrite Ws.
    destruct (save_target t (outcome_of process fixed t f0)) as [[q c]|] eqn:Es.
    + destruct (streq p q) eqn:Eq; [reflexivity|]. apply streq_false in Eq.
      assert (G : (forall x, In x (paths t) -> x <> q -> f1 x = f0 x)).
      { intros x Hx Hxq. destruct (w_place w1 i) as [| | |q' b|q' d r|[]|[]] eqn:Ep; try (apply L; assumption).
        - destruct L as (L1 & L2 & L3). unfold target, wanted in L1. rewrite Es in L1. injection L1 as -> ->. now apply L3.
        - destruct L as [L1 L2]. fold f1 in L2. rewrite L2 by assumption. unfold result, target, wanted. rewrite Es. apply streq_false in Hxq. now rewrite Hxq.
        - destruct L as [L1 L2]. fold f1 in L2. rewrite L2 by assumption. unfold result, target, wanted. rewrite Es. apply streq_false in Hxq. now rewrite Hxq. }
      now apply G.
    + destruct (w_place w1 i) as [| | |q' b|q' d r|[]|[]] eqn:Ep; try (apply L; assumption).
      * destruct L as (L1 & _ & _). unfold target, wanted in L1. congruence.
      * destruct L as [L1 L2]. fold f1 in L2. rewrite L2 by assumption. unfold result, target, wanted. now rewrite Es.
      * destruct L as [L1 L2]. fold f1 in L2. rewrite L2 by assumption. unfold result, target, wanted. now rewrite Es.
Qed.
End Crash.

(* ---------------------------------------------------------------- *)
(** ** Schedules, to run examples *)
Section Exec.
Variable process : str -> str -> outcome.
Variable fixed : option (str -> option str).
Variable tasks : list task.
Variable workers : nat.
Variable shared : bool.
(** [0]: the next task is taken from the queue; [S i]: the next step of task [i] *)
Definition exec_one (w : world) (c : nat) : option world :=
  match c with
  | 0 => match w_queue w with
         | i :: q => if running tasks w <? workers then Some (mkWorld (w_files w) (w_tmp w) (w_stack w) q (set_at (w_place w) i Start)) else None
         | [] => None
         end
  | S i => match nth_error tasks i with Some t => task_step process fixed shared i t w | None => None end
  end.
Fixpoint exec (w : world) (l : list nat) : option world :=
  match l with [] => Some w | c :: l' => match exec_one w c with Some w' => exec w' l' | None => None end end.
Lemma exec_one_step w c w' : exec_one w c = Some w' -> step process fixed tasks workers shared w w'.
Proof.
  destruct c as [|i]; cbn [exec_one].
  - destruct (w_queue w) as [|i q] eqn:Eq; [discriminate|]. destruct (running tasks w <? workers) eqn:Er; [|discriminate]. intros [= <-].
    apply step_take; [exact Eq|]. now apply Nat.ltb_lt.
  - destruct (nth_error tasks i) as [t|] eqn:Et; [|discriminate]. intros E. eapply step_task; eassumption.
Qed.
Lemma exec_gen l k w0 w w' : steps process fixed tasks workers shared k w0 w -> exec w l = Some w' -> steps process fixed tasks workers shared (k + length l) w0 w'.
Proof.
  revert k w. induction l as [|c l IH]; intros k w Hk; cbn [exec length]; [intros [= <-]; now rewrite Nat.add_0_r|].
  destruct (exec_one w c) as [w1|] eqn:E; [|discriminate]. intros E'. replace (k + S (length l)) with (S k + length l) by lia.
  eapply IH; [|exact E']. econstructor; [exact Hk|]. eapply exec_one_step. exact E.
Qed.
Lemma exec_steps l w w' : exec w l = Some w' -> steps process fixed tasks workers shared (length l) w w'.
Proof. apply (exec_gen l 0). constructor. Qed.
End Exec.
(** as far as the turns can be taken *)
Fixpoint exec_all (process : str -> str -> outcome) fixed tasks workers shared (w : world) (l : list nat) : world * list nat :=
  match l with
  | [] => (w, [])
  | x :: l' => match exec_one process fixed tasks workers shared w x with
               | Some w' => let (r, done) := exec_all process fixed tasks workers shared w' l' in (r, x :: done)
               | None => exec_all process fixed tasks workers shared w l'
               end
  end.
Lemma exec_all_steps process fixed tasks workers shared w l : steps process fixed tasks workers shared (length (snd (exec_all process fixed tasks workers shared w l))) w
  (fst (exec_all process fixed tasks workers shared w l)).
Proof.
  apply exec_steps. revert w. induction l as [|x l IH]; intros w; [reflexivity|]. cbn [exec_all]. destruct (exec_one process fixed tasks workers shared w x) as [w'|] eqn:E; [|apply IH].
  specialize (IH w'). destruct (exec_all process fixed tasks workers shared w' l) as [r done]. cbn [fst snd exec] in *. now rewrite E.
Qed.

(** annotate: [!] is put in front; what starts with x is rejected; what is empty fails *)
Definition ex_process (src c : str) : outcome :=
  match c with
  | [] => OFail
  | x :: _ => if N.eqb x 120 then OReject (33%N :: c) else OSave (33%N :: c)
  end.
Definition ex_fixed : option (str -> option str) := Some (fun c => Some c).
Definition ex_srcs : list str := [u "in/a"; u "in/b"; u "in/c"; u "in/d"]%string.
Definition ex_f0 : files := fun p =>
  if streq p (u "in/a"%string) then Some (u "aa"%string) else if streq p (u "in/b"%string) then Some (u "bb"%string)
  else if streq p (u "in/c"%string) then Some (u "xc"%string) else if streq p (u "in/d"%string) then Some [] else None.
Definition ex_tasks : list task := map (task_for (u "out"%string) (Some (u "bad"%string))) ex_srcs.
Lemma ex_apart : apart ex_tasks.
Proof. apply C43_names. repeat constructor; cbn; intuition discriminate. Qed.
Lemma ex_kept : sources_kept ex_tasks.
Proof.
  change ex_srcs with (map (join_path (u "in"%string)) [u "a"; u "b"; u "c"; u "d"]%string). unfold ex_tasks.
  change ex_srcs with (map (join_path (u "in"%string)) [u "a"; u "b"; u "c"; u "d"]%string). apply C43_sources.
  - repeat constructor; unfold slash_free; cbn; intuition discriminate.
  - discriminate.
  - intros d [= <-]. discriminate.
Qed.
Definition ex_start (ts : list task) (f : files) : world := initial ts f.
(** two workers, all documents: one is saved, rejected, fails *)
Example ex_sequential :
  (let (f, es) := auto_annotate_list ex_process ex_fixed ex_tasks ex_f0 in
   (map f [u "out/a"; u "out/b"; u "out/c"; u "bad/c"; u "out/d"; u "bad/d"]%string, es)) =
  ([Some (u "!aa"); Some (u "!bb"); None; Some (u "!xc"); None; None]%string, [false; false; false; true]).
Proof. vm_compute. reflexivity. Qed.
(** each process has its own stack: tasks 0 and 1 in turns, then 2 and 3 *)
Definition ex_turns : list nat :=
  [0; 0; 1; 2; 1; 2; 1; 2; 1; 2; 1; 2; 1; 2; 1; 2; 1; 2; 1; 2; 0; 0; 3; 4; 3; 4; 4; 4; 3; 3; 3; 3; 3; 3; 3].
Example ex_isolated :
  option_map (fun w => (map (w_files w) [u "out/a"; u "out/b"; u "out/c"; u "bad/c"; u "out/d"; u "bad/d"]%string, map (w_place w) [0; 1; 2; 3], run_fails ex_tasks false w))
    (exec ex_process ex_fixed ex_tasks 2 false (ex_start ex_tasks ex_f0) ex_turns) =
  Some ([Some (u "!aa"); Some (u "!bb"); None; Some (u "!xc"); None; None]%string, [Done false; Done false; Done false; Done true], true).
Proof. vm_compute. reflexivity. Qed.

(** ** C43 is false for threads that use temporary copies *)
Definition ex_two : list task := map (task_for (u "out"%string) None) [u "in/a"; u "in/b"]%string.
Lemma ex_two_apart : apart ex_two.
Proof. apply C43_names. repeat constructor; cbn; intuition discriminate. Qed.
Lemma ex_two_kept : sources_kept ex_two.
Proof.
  unfold ex_two. change [u "in/a"; u "in/b"]%string with (map (join_path (u "in"%string)) [u "a"; u "b"]%string). apply C43_sources.
  - repeat constructor; unfold slash_free; cbn; intuition discriminate.
  - discriminate.
  - intros d [=].
Qed.
(** Both have their copies; the first to finish removes the other's copy as well. *)
Definition ex_race : list nat := [0; 0; 1; 2; 1; 1; 1; 1; 1; 1; 1; 1; 1; 2; 2].
Theorem C43_refuted : exists process fixed tasks workers f0 k w,
  apart tasks /\ sources_kept tasks /\
  steps process fixed tasks workers true k (initial tasks f0) w /\ finished tasks w /\
  snd (auto_annotate_list process fixed tasks f0) = [false; false] /\
  fst (auto_annotate_list process fixed tasks f0) (u "out/b"%string) = Some (u "!bb"%string) /\
  w_files w (u "out/b"%string) = None /\ run_fails tasks false w = true.
Proof.
  destruct (exec ex_process ex_fixed ex_two 2 true (ex_start ex_two ex_f0) ex_race) as [w|] eqn:E; [|vm_compute in E; discriminate].
  exists ex_process, ex_fixed, ex_two, 2, ex_f0, (length ex_race), w.
  split; [exact ex_two_apart|]. split; [exact ex_two_kept|]. split; [apply exec_steps; exact E|].
  assert (Q : option_map (fun w => (w_place w 0, w_place w 1, w_files w (u "out/b"%string)))
     (exec ex_process ex_fixed ex_two 2 true (ex_start ex_two ex_f0) ex_race) = Some (Done false, Done true, None)) by (vm_compute; reflexivity).
  rewrite E in Q. cbn [option_map] in Q. injection Q as Q1 Q2 Q3.
  split; [intros [|[|i]] Hi; [eauto|eauto|cbn in Hi; lia]|].
  split; [vm_compute; reflexivity|]. split; [vm_compute; reflexivity|]. split; [exact Q3|].
  unfold run_fails. cbn [length ex_two map seq existsb]. now rewrite Q1, Q2.
Qed.
(** Two sources with the same name: the last to finish wins. *)
Definition ex_same : list task := map (task_for (u "out"%string) None) [u "in/a"; u "more/a"]%string.
Definition ex_same_f0 : files := fun p =>
  if streq p (u "in/a"%string) then Some (u "a"%string) else if streq p (u "more/a"%string) then Some (u "b"%string) else None.
Definition ex_same_order : list nat := [0; 0; 2; 2; 2; 2; 2; 2; 2; 1; 1; 1; 1; 1; 1; 1].
Theorem C43_names_refuted : exists process tasks f0 k w, sources_kept tasks /\
  steps process None tasks 2 false k (initial tasks f0) w /\ finished tasks w /\
  fst (auto_annotate_list process None tasks f0) (u "out/a"%string) = Some (u "!b"%string) /\ w_files w (u "out/a"%string) = Some (u "!a"%string).
Proof.
  destruct (exec ex_process None ex_same 2 false (ex_start ex_same ex_same_f0) ex_same_order) as [w|] eqn:E; [|vm_compute in E; discriminate].
  exists ex_process, ex_same, ex_same_f0, (length ex_same_order), w.
  split.
  { unfold ex_same. intros t t' Ht Ht'. cbn in Ht, Ht'. destruct Ht as [<-|[<-|[]]], Ht' as [<-|[<-|[]]]; cbn; intuition discriminate. }
  split; [apply exec_steps; exact E|].
  assert (Q : option_map (fun w => (w_place w 0, w_place w 1, w_files w (u "out/a"%string)))
     (exec ex_process None ex_same 2 false (ex_start ex_same ex_same_f0) ex_same_order) = Some (Done false, Done false, Some (u "!a"%string))) by (vm_compute; reflexivity).
  rewrite E in Q. cbn [option_map] in Q. injection Q as Q1 Q2 Q3.
  split; [intros [|[|i]] Hi; [eauto|eauto|cbn in Hi; lia]|]. split; [vm_compute; reflexivity|exact Q3].
Qed.

(** ** C45 is false for threads that use temporary copies *)
Definition ex_fail : list task := map (task_for (u "out"%string) None) [u "in/d"; u "in/b"]%string.
Definition ex_fail_order : list nat := [0; 0; 1; 2; 1; 1; 1; 1; 2; 2].
(** The first document fails, and takes the copy of the second with it. *)
Theorem C45_refuted : exists process fixed t t' f0 k w,
  apart [t; t'] /\ sources_kept [t; t'] /\
  steps process fixed [t; t'] 2 true k (initial [t; t'] f0) w /\ finished [t; t'] w /\
  snd (auto_annotate process fixed t f0) = true /\ snd (auto_annotate process fixed t' f0) = false /\
  fst (auto_annotate process fixed t' f0) (tk_out t') = Some (u "!bb"%string) /\ w_files w (tk_out t') = None.
Proof.
  destruct (exec ex_process ex_fixed ex_fail 2 true (ex_start ex_fail ex_f0) ex_fail_order) as [w|] eqn:E; [|vm_compute in E; discriminate].
  exists ex_process, ex_fixed, (task_for (u "out"%string) None (u "in/d"%string)), (task_for (u "out"%string) None (u "in/b"%string)), ex_f0, (length ex_fail_order), w.
  change [task_for (u "out"%string) None (u "in/d"%string); task_for (u "out"%string) None (u "in/b"%string)] with ex_fail.
  split; [apply C43_names; repeat constructor; cbn; intuition discriminate|].
  split; [intros t t' Ht Ht'; cbn in Ht, Ht'; destruct Ht as [<-|[<-|[]]], Ht' as [<-|[<-|[]]]; cbn; intuition discriminate|].
  split; [apply exec_steps; exact E|].
  assert (Q : option_map (fun w => (w_place w 0, w_place w 1, w_files w (u "out/b"%string)))
     (exec ex_process ex_fixed ex_fail 2 true (ex_start ex_fail ex_f0) ex_fail_order) = Some (Done true, Done true, None)) by (vm_compute; reflexivity).
  rewrite E in Q. cbn [option_map] in Q. injection Q as Q1 Q2 Q3.
  split; [intros [|[|i]] Hi; [eauto|eauto|cbn in Hi; lia]|].
  split; [vm_compute; reflexivity|]. split; [vm_compute; reflexivity|]. split; [vm_compute; reflexivity|exact Q3].
Qed.

(** ** C44 is false for a half written output *)
Definition ex_one : list str := [u "in/a"]%string.
Lemma ex_one_kept : sources_kept (map (task_for (u "out"%string) None) ex_one).
Proof. intros t t' Ht Ht'. cbn in Ht, Ht'. destruct Ht as [<-|[]], Ht' as [<-|[]]; cbn; intuition discriminate. Qed.
Definition ex_killed : list nat := [0; 1; 1; 1; 1; 1].
Theorem C44_refuted : exists process dir srcs f0 k w,
  NoDup (map basename srcs) /\ sources_kept (map (task_for dir None) srcs) /\
  steps process None (plan true dir None f0 srcs) 1 false k (initial (plan true dir None f0 srcs) f0) w /\
  plan true dir None (w_files w) srcs = [] /\
  fst (auto_annotate_list process None (plan true dir None f0 srcs) f0) (u "out/a"%string) = Some (u "!aa"%string) /\
  w_files w (u "out/a"%string) = Some (u "!a"%string).
Proof.
  destruct (exec ex_process None (plan true (u "out"%string) None ex_f0 ex_one) 1 false (ex_start (plan true (u "out"%string) None ex_f0 ex_one) ex_f0) ex_killed) as [w|] eqn:E; [|vm_compute in E; discriminate].
  exists ex_process, (u "out"%string), ex_one, ex_f0, (length ex_killed), w.
  split; [repeat constructor; cbn; intuition|]. split; [exact ex_one_kept|]. split; [apply exec_steps; exact E|].
  assert (Q : option_map (fun w => (plan true (u "out"%string) None (w_files w) ex_one, w_files w (u "out/a"%string)))
     (exec ex_process None (plan true (u "out"%string) None ex_f0 ex_one) 1 false (ex_start (plan true (u "out"%string) None ex_f0 ex_one) ex_f0) ex_killed) = Some ([], Some (u "!a"%string))) by (vm_compute; reflexivity).
  rewrite E in Q. cbn [option_map] in Q. injection Q as Q1 Q2. split; [exact Q1|]. split; [vm_compute; reflexivity|exact Q2].
Qed.
(** and if the first run was to overwrite outputs *)
Definition ex_old : files := upd ex_f0 (u "out/a"%string) (Some (u "old"%string)).
Theorem C44_old_refuted : exists process dir srcs f0,
  NoDup (map basename srcs) /\ sources_kept (map (task_for dir None) srcs) /\
  (* killed before the first step *)
  plan true dir None f0 srcs = [] /\
  fst (auto_annotate_list process None (plan false dir None f0 srcs) f0) (u "out/a"%string) = Some (u "!aa"%string) /\
  f0 (u "out/a"%string) = Some (u "old"%string).
Proof.
  exists ex_process, (u "out"%string), ex_one, ex_old.
  split; [repeat constructor; cbn; intuition|]. split; [exact ex_one_kept|]. split; [vm_compute; reflexivity|]. split; vm_compute; reflexivity.
Qed.

(** ** Examples *)
Example C43_example : exists k w, isolated ex_fixed 2 false /\ steps ex_process ex_fixed ex_tasks 2 false k (initial ex_tasks ex_f0) w /\ finished ex_tasks w /\
  same_files (w_files w) (fst (auto_annotate_list ex_process ex_fixed ex_tasks ex_f0)) /\ run_fails ex_tasks true w = false.
Proof.
  pose proof ex_isolated as Q.
  destruct (exec ex_process ex_fixed ex_tasks 2 false (ex_start ex_tasks ex_f0) ex_turns) as [w|] eqn:E; [|discriminate Q].
  cbn [option_map] in Q. injection Q. intros _ Q4 Q3 Q2 Q1 _ _ _ _ _ _. apply exec_steps in E. exists (length ex_turns), w.
  assert (I : isolated ex_fixed 2 false) by (now left).
  assert (F : finished ex_tasks w) by (intros [|[|[|[|i]]]] Hi; eauto; cbn in Hi; lia).
  split; [exact I|]. split; [exact E|]. split; [exact F|].
  split; [eapply C43_isolated; eauto; [exact ex_apart|exact ex_kept]|reflexivity].
Qed.
(** killed after the first output is complete and while the rejected one is written *)
Definition ex_kill : list nat := [0; 0; 1; 1; 1; 1; 1; 1; 1; 1; 1; 0; 2; 3; 3; 3; 3].
Definition ex_again : list nat :=
  [0; 0; 0; 1; 2; 3; 1; 2; 3; 1; 1; 1; 1; 1; 1; 1; 2; 2; 2; 2; 2; 2; 2; 3; 3].
Example C44_example :
  (let p := plan true (u "out"%string) (Some (u "bad"%string)) ex_f0 ex_srcs in
   match exec ex_process ex_fixed p 2 false (ex_start p ex_f0) ex_kill with
   | Some w => Some (map (w_files w) [u "out/a"; u "out/b"; u "out/c"; u "bad/c"]%string, map (w_place w) [0; 1; 2; 3],
       let p' := plan true (u "out"%string) (Some (u "bad"%string)) (w_files w) ex_srcs in
       (map tk_src p', option_map (fun w' => map (w_files w') [u "out/a"; u "out/b"; u "out/c"; u "bad/c"]%string)
                (exec ex_process ex_fixed p' 3 false (ex_start p' (w_files w)) ex_again)))
   | None => None
   end) =
  Some ([Some (u "!aa"); None; None; Some (u "!")]%string, [Done false; Load; Writing (u "bad/c") (u "!") (u "xc"); Idle]%string,
    ([u "in/b"; u "in/c"; u "in/d"]%string, Some [Some (u "!aa"); Some (u "!bb"); None; Some (u "!xc")]%string)).
Proof. vm_compute. reflexivity. Qed.
Example C45_example :
  map (fun t => snd (auto_annotate ex_process ex_fixed t ex_f0)) ex_tasks = [false; false; false; true].
Proof. vm_compute. reflexivity. Qed.
Example C42_example :
  remaining true (u "out"%string) (upd ex_f0 (u "out/b"%string) (Some [])) ex_srcs = [u "in/a"; u "in/c"; u "in/d"]%string /\
  remaining false (u "out"%string) (upd ex_f0 (u "out/b"%string) (Some [])) ex_srcs = ex_srcs.
Proof. split; vm_compute; reflexivity. Qed.

Example C42_ex_single :
  remaining true (u "out"%string) (upd ex_f0 (u "out/b"%string) (Some [])) (source_list (Some (u "in/a"%string)) ex_srcs) = [u "in/a"%string] /\
  remaining true (u "out"%string) (upd ex_f0 (u "out/b"%string) (Some [])) (source_list (Some (u "in/b"%string)) ex_srcs) = [].
Proof. split; vm_compute; reflexivity. Qed.
Example C45_ex_workers : worker_count 2 ex_srcs = 2 /\ worker_count 9 ex_srcs = 4 /\ length ex_srcs = length ex_tasks.
Proof. auto. Qed.

Print Assumptions C41_one.
Print Assumptions C42_resume.
Print Assumptions C42_all.
Print Assumptions C42_single.
Print Assumptions C42_found.
Print Assumptions C45_workers.
Print Assumptions C43_isolated.
Print Assumptions C43_safe.
Print Assumptions C43_ends.
Print Assumptions C43_progress.
Print Assumptions C43_refuted.
Print Assumptions C44_partial.
Print Assumptions C44_refuted.
Print Assumptions C45_run.
Print Assumptions C45_alone.
Print Assumptions C45_refuted.
