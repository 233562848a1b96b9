(** C19: expanding tags to untagged neighbours. *)
From Verif Require Import Base ModelTags ProofTags ModelTei ModelTeiDoc SpecTeiWrite SpecTeiDoc ProofTeiDoc ModelExpand.

Ltac dmem := match goal with |- context [mem ?x ?e] => destruct (mem x e) end.
Ltac dmem_as M := match goal with |- context [mem ?x ?e] => destruct (mem x e) eqn:M end.
Section Expand.
Variable sp : N -> bool.
Variable enabled : list str.

(** value of the tag a token shows; [Some []] counts as none *)
Definition val (t : tok) : ostr := strip_tag_prefix (shown LMain t).
Definition untagged (t : tok) : Prop := truthy (val t) = false.
Definition gap_tok (t : tok) : Prop := is_space sp t = true \/ untagged t.
Definition tagged_word (t : tok) : bool := is_word sp t && truthy (val t).
(** [t] with another tag; nothing else changes *)
Definition with_tag (p v : str) (t : tok) : tok := mkTok (tx t) (Some (p ++ v)) (sub t) (ptag t) (psub t) (ws t).

(** value of the nearest tagged word of a list *)
Definition nearest (l : list tok) : ostr := match find tagged_word l with Some w => val w | None => None end.
(** does the nearest word have a tag (or is there no word)? *)
Definition closed (l : list tok) : bool := match find (is_word sp) l with Some w => truthy (val w) | None => true end.
Definition is_enabled (v : ostr) : bool := match v with Some ((_ :: _) as x) => mem x enabled | _ => false end.

(** what becomes of [t] between [before] and [next] *)
Definition expected_previous (before : list tok) (t : tok) (next : list tok) : tok :=
  if is_space sp t then t
  else match val t with
       | Some ((_ :: _) as v) => if mem v enabled && negb (closed (rev before)) then with_tag (u "i-") v t else t
       | _ => match nearest next with
              | Some ((_ :: _) as v) =>
                  if mem v enabled then with_tag (if closed (rev before) then u "b-" else u "i-") v t else t
              | _ => t
              end
       end.
Definition expected_following (before : list tok) (t : tok) : tok :=
  if is_space sp t then t
  else match val t with
       | Some (_ :: _) => t
       | _ => match nearest (rev before) with
              | Some ((_ :: _) as v) => if mem v enabled then with_tag (u "i-") v t else t
              | _ => t
              end
       end.

Fixpoint each (f : list tok -> tok -> list tok -> tok) (before l : list tok) : list tok :=
  match l with [] => [] | t :: l' => f before t l' :: each f (before ++ [t]) l' end.
Lemma each_nth f l : forall before a t b, l = a ++ t :: b -> nth_error (each f before l) (length a) = Some (f (before ++ a) t b).
Proof.
  induction l as [|x l IH]; intros before a t b E; [destruct a; discriminate|].
  destruct a as [|y a]; cbn [app] in E; injection E as -> E; cbn [each length nth_error].
  - subst. now rewrite app_nil_r.
  - rewrite (IH _ a t b E). now rewrite <- app_assoc.
Qed.
Lemma each_length f l : forall before, length (each f before l) = length l.
Proof. induction l as [|x l IH]; intros before; cbn; auto. Qed.

Lemma val_eq t : tag_or_preserved_value LMain t = val t.
Proof. reflexivity. Qed.
Lemma find_app {A} (f : A -> bool) l1 l2 : find f (l1 ++ l2) = match find f l1 with Some x => Some x | None => find f l2 end.
Proof. induction l1 as [|a l1 IH]; [reflexivity|]. cbn. destruct (f a); auto. Qed.

Lemma nearest_gap m l : Forall gap_tok m -> nearest (m ++ l) = nearest l.
Proof.
  intros H. unfold nearest. rewrite find_app. assert (find tagged_word m = None) as ->; [|reflexivity].
  induction H as [|t m H _ IH]; [reflexivity|]. cbn. assert (tagged_word t = false) as ->; [|exact IH].
  unfold tagged_word, is_word. destruct H as [-> | H]; [reflexivity|]. unfold untagged in H. rewrite H. apply andb_false_r.
Qed.
Lemma closed_gap m l : Forall gap_tok m -> closed (rev (l ++ m)) = if existsb (is_word sp) m then false else closed (rev l).
Proof.
  intros H. induction m as [|t m IH] using rev_ind; [now rewrite app_nil_r|]. apply Forall_app in H as [H1 H2]. inversion H2 as [|? ? H3 _]; subst.
  rewrite app_assoc, rev_app_distr. cbn [rev app]. rewrite existsb_app. cbn [existsb]. rewrite orb_false_r.
  unfold closed at 1. cbn [find]. destruct (is_word sp t) eqn:E.
  - rewrite orb_true_r. destruct H3 as [H3|H3]; [unfold is_word in E; rewrite H3 in E; discriminate | exact H3].
  - rewrite orb_false_r. now apply IH.
Qed.
Lemma closed_tagged l t : is_space sp t = false -> truthy (val t) = true -> closed (rev (l ++ [t])) = true.
Proof. intros H1 H2. rewrite rev_app_distr. cbn. unfold closed. cbn. unfold is_word. now rewrite H1. Qed.

(** pending tokens before [l] *)
Lemma pending_spec m : forall before l, Forall gap_tok m ->
  each expected_previous before (m ++ l)
  = (match nearest l with
     | Some ((_ :: _) as v) => if mem v enabled then tag_pending sp v (closed (rev before)) m else m
     | _ => m
     end) ++ each expected_previous (before ++ m) l.
Proof.
  induction m as [|t m IH]; intros before l H.
  - rewrite app_nil_r. cbn [app tag_pending]. destruct (nearest l) as [[|c v]|]; [reflexivity| |reflexivity]. match goal with |- context [mem ?x enabled] => destruct (mem x enabled) end; reflexivity.
  - inversion H as [|? ? H1 H2]; subst. cbn [app each]. rewrite (IH _ _ H2), <- app_assoc. cbn [app].
    unfold expected_previous at 1. destruct (is_space sp t) eqn:E.
    + assert (Q : closed (rev (before ++ [t])) = closed (rev before)).
      { rewrite closed_gap; [|constructor; [now left | constructor]]. cbn [existsb]. unfold is_word. now rewrite E. }
      destruct (nearest l) as [[|c v]|]; [reflexivity| |reflexivity]. dmem; [|reflexivity]. cbn [tag_pending]. rewrite E, Q. reflexivity.
    + destruct H1 as [H1|H1]; [congruence|]. unfold untagged in H1.
      assert (V : match val t with Some (_ :: _) => False | _ => True end) by (destruct (val t) as [[|c v]|]; [exact I | discriminate | exact I]).
      rewrite (nearest_gap m l H2).
      assert (Q : closed (rev (before ++ [t])) = false).
      { rewrite closed_gap; [|constructor; [now right | constructor]]. cbn [existsb]. unfold is_word. now rewrite E. }
      destruct (val t) as [[|]|]; [| easy |]; (destruct (nearest l) as [[|c v]|]; [reflexivity| |reflexivity]); (dmem; [|reflexivity]);
        cbn [tag_pending]; rewrite E, Q; destruct (closed (rev before)); reflexivity.
Qed.
Lemma previous_each l : forall m before, Forall gap_tok m -> closed (rev before) = true ->
  expand_previous sp enabled m l = each expected_previous before (m ++ l).
Proof.
  induction l as [|t l IH]; intros m before Hm Hc; cbn [expand_previous].
  - rewrite (pending_spec m before [] Hm). cbn. now rewrite app_nil_r.
  - destruct (is_space sp t) eqn:E.
    + rewrite (IH (m ++ [t]) before); [now rewrite <- app_assoc | | exact Hc]. apply Forall_app. split; [exact Hm | constructor; [now left | constructor]].
    + rewrite val_eq.
      assert (U : truthy (val t) = false -> expand_previous sp enabled (m ++ [t]) l = each expected_previous before (m ++ t :: l)).
      { intros U. rewrite (IH (m ++ [t]) before); [now rewrite <- app_assoc | | exact Hc]. apply Forall_app. split; [exact Hm | constructor; [now right | constructor]]. }
      destruct (val t) as [[|c v]|] eqn:V; [now apply U | | now apply U].
      rewrite (pending_spec m before (t :: l) Hm). cbn [each].
      assert (Nr : nearest (t :: l) = Some (c :: v)) by (unfold nearest; cbn [find]; unfold tagged_word, is_word; rewrite E, V; cbn [negb andb truthy]; exact V).
      rewrite Nr. rewrite (IH [] ((before ++ m) ++ [t])); [| constructor | apply closed_tagged; [exact E | now rewrite V]]. cbn [app].
      set (rest := each expected_previous ((before ++ m) ++ [t]) l). clearbody rest.
      unfold expected_previous. rewrite E, V, Hc, (closed_gap m before Hm), Hc. fold (is_word sp).
      change (fun x => negb (is_space sp x)) with (is_word sp).
      destruct (existsb (is_word sp) m) eqn:X; cbn [negb].
      * dmem; reflexivity.
      * rewrite andb_false_r. dmem; [|reflexivity]. f_equal. clear - X. induction m as [|x m IH]; [reflexivity|].
        cbn [existsb tag_pending] in *. apply orb_false_iff in X as [X1 X2]. unfold is_word in X1. apply negb_false_iff in X1. rewrite X1. now rewrite <- IH.
Qed.
Lemma following_each l : forall before,
  expand_following sp enabled (if is_enabled (nearest (rev before)) then nearest (rev before) else None) l = each (fun a t _ => expected_following a t) before l.
Proof.
  induction l as [|t l IH]; intros before; [reflexivity|]. cbn [expand_following each]. unfold expected_following at 1.
  assert (G : gap_tok t -> nearest (rev (before ++ [t])) = nearest (rev before)).
  { intros G. rewrite rev_app_distr. apply nearest_gap. constructor; [exact G | constructor]. }
  destruct (is_space sp t) eqn:E.
  - rewrite <- (IH (before ++ [t])), G; [reflexivity | now left].
  - rewrite val_eq.
    assert (U : truthy (val t) = false -> nearest (rev (before ++ [t])) = nearest (rev before)) by (intros U; apply G; now right).
    destruct (val t) as [[|c v]|] eqn:V.
    + rewrite <- (IH (before ++ [t])), U by reflexivity. destruct (nearest (rev before)) as [[|c v]|]; cbn [is_enabled]; [reflexivity | | reflexivity]. dmem; reflexivity.
    + rewrite <- (IH (before ++ [t])). rewrite rev_app_distr. cbn [rev app]. unfold nearest at 1 2. cbn [find]. unfold tagged_word, is_word. rewrite E, V. cbn [negb andb truthy].
      rewrite V. reflexivity.
    + rewrite <- (IH (before ++ [t])), U by reflexivity. destruct (nearest (rev before)) as [[|c v]|]; cbn [is_enabled]; [reflexivity | | reflexivity]. dmem; reflexivity.
Qed.

Lemma reshape_spec ns : forall l, length l = list_sum ns -> concat (reshape ns l) = l /\ map (@length tok) (reshape ns l) = ns.
Proof.
  induction ns as [|n ns IH]; intros l H; cbn [reshape concat map].
  - destruct l; [split; reflexivity | discriminate].
  - change (list_sum (n :: ns)) with (n + list_sum ns) in H.
    destruct (IH (skipn n l)) as [I1 I2]; [rewrite skipn_length; lia|]. rewrite I1, I2, firstn_skipn, firstn_length. split; [reflexivity|]. f_equal. lia.
Qed.
Lemma concat_len (d : doc) : length (concat d) = list_sum (map (@length tok) d).
Proof. induction d as [|l d IH]; [reflexivity|]. cbn. rewrite app_length. now f_equal. Qed.

(** Every token ends up as expected; the lines keep their lengths. *)
Theorem C19_previous_exact d a t b : concat d = a ++ t :: b ->
  map (@length tok) (annotate_previous sp enabled d) = map (@length tok) d
  /\ nth_error (concat (annotate_previous sp enabled d)) (length a) = Some (expected_previous a t b).
Proof.
  intros H. unfold annotate_previous, through_tokens. rewrite (previous_each (concat d) [] []) by (constructor || reflexivity). cbn [app].
  destruct (reshape_spec (map (@length tok) d) (each expected_previous [] (concat d))) as [R1 R2]; [rewrite each_length; apply concat_len|].
  rewrite R1. split; [exact R2|]. exact (each_nth expected_previous (concat d) [] a t b H).
Qed.
Theorem C19_following_exact d a t b : concat d = a ++ t :: b ->
  map (@length tok) (annotate_following sp enabled d) = map (@length tok) d
  /\ nth_error (concat (annotate_following sp enabled d)) (length a) = Some (expected_following a t).
Proof.
  intros H. unfold annotate_following, through_tokens. rewrite (following_each (concat d) [] : expand_following sp enabled None (concat d) = _).
  destruct (reshape_spec (map (@length tok) d) (each (fun a t _ => expected_following a t) [] (concat d))) as [R1 R2]; [rewrite each_length; apply concat_len|].
  rewrite R1. split; [exact R2|]. exact (each_nth (fun a t _ => expected_following a t) (concat d) [] a t b H).
Qed.

Lemma val_with_tag p v t : (p = u "b-" \/ p = u "i-") -> val (with_tag p v t) = Some v.
Proof. intros [-> | ->]; reflexivity. Qed.
(** both passes at once *)
Definition passes (f : doc -> doc) : Prop := f = annotate_previous sp enabled \/ f = annotate_following sp enabled.
Lemma pass_at f d a t b : passes f -> concat d = a ++ t :: b -> exists t', nth_error (concat (f d)) (length a) = Some t'
  /\ (t' = t \/ exists p v, (p = u "b-" \/ p = u "i-") /\ t' = with_tag p v t /\ v <> [] /\ In v enabled /\ is_space sp t = false
        /\ (val t = Some v \/ (untagged t /\ (nearest b = Some v \/ nearest (rev a) = Some v)))).
Proof.
  intros [-> | ->] H.
  - destruct (C19_previous_exact d a t b H) as [_ E]. eexists. split; [exact E|]. unfold expected_previous. destruct (is_space sp t) eqn:Hs; [now left|].
    assert (Un : truthy (val t) = false -> untagged t) by auto.
    destruct (val t) as [[|c v]|] eqn:V.
    + destruct (nearest b) as [[|c v]|]; [now left| |now left]. dmem_as M; [|now left]. right. exists (if closed (rev a) then u "b-" else u "i-"), (c :: v).
      split; [destruct (closed (rev a)); auto|]. split; [reflexivity|]. split; [discriminate|]. split; [now apply mem_In|]. auto.
    + destruct (mem (c :: v) enabled && negb (closed (rev a))) eqn:M; [|now left]. apply andb_true_iff in M as [M _]. right. exists (u "i-"), (c :: v).
      split; [auto|]. split; [reflexivity|]. split; [discriminate|]. split; [now apply mem_In|]. auto.
    + destruct (nearest b) as [[|c v]|]; [now left| |now left]. dmem_as M; [|now left]. right. exists (if closed (rev a) then u "b-" else u "i-"), (c :: v).
      split; [destruct (closed (rev a)); auto|]. split; [reflexivity|]. split; [discriminate|]. split; [now apply mem_In|]. auto.
  - destruct (C19_following_exact d a t b H) as [_ E]. eexists. split; [exact E|]. unfold expected_following. destruct (is_space sp t) eqn:Hs; [now left|].
    assert (Un : truthy (val t) = false -> untagged t) by auto.
    destruct (val t) as [[|c v]|] eqn:V; [|now left|].
    + destruct (nearest (rev a)) as [[|c v]|]; [now left| |now left]. dmem_as M; [|now left]. right. exists (u "i-"), (c :: v).
      split; [auto|]. split; [reflexivity|]. split; [discriminate|]. split; [now apply mem_In|]. auto.
    + destruct (nearest (rev a)) as [[|c v]|]; [now left| |now left]. dmem_as M; [|now left]. right. exists (u "i-"), (c :: v).
      split; [auto|]. split; [reflexivity|]. split; [discriminate|]. split; [now apply mem_In|]. auto.
Qed.

(** Values that are there stay; a new value is enabled, goes to an untagged word and is
    the value of the nearest tagged word on one side. *)
Theorem C19_values f d a t b : passes f -> concat d = a ++ t :: b -> exists t',
  nth_error (concat (f d)) (length a) = Some t' /\ same_text t t'
  /\ (truthy (val t) = true -> val t' = val t)
  /\ (val t' <> val t -> untagged t /\ is_space sp t = false /\ is_enabled (val t') = true
        /\ (val t' = nearest b \/ val t' = nearest (rev a))).
Proof.
  intros Hf H. destruct (pass_at f d a t b Hf H) as (t' & E & [-> | (p & v & Hp & -> & Hv & Hi & Hs & Hc)]); eexists; (split; [exact E|]).
  - repeat split; auto; congruence.
  - rewrite (val_with_tag p v t Hp). split; [split; reflexivity|]. split.
    + intros Ht. destruct Hc as [Hc|[Hc _]]; [congruence | unfold untagged in Hc; congruence].
    + intros Hn. destruct Hc as [Hc|[Hu Hc]]; [congruence|]. repeat split; auto.
      * destruct v; [easy|]. cbn. now apply mem_In.
      * destruct Hc as [-> | ->]; auto.
Qed.

(** No holes: the words between an enabled block and the next tagged word (or the end)
    all get its value. *)
Theorem C19_previous_no_hole d a m w b v : concat d = a ++ m ++ w :: b ->
  Forall gap_tok m -> is_space sp w = false -> val w = Some v -> v <> [] -> In v enabled ->
  forall i t, nth_error m i = Some t -> is_space sp t = false ->
  exists t', nth_error (concat (annotate_previous sp enabled d)) (length a + i) = Some t' /\ val t' = Some v.
Proof.
  intros H Hm Hs Hw Hv Hi i t Hn Ht. destruct (nth_error_split _ _ Hn) as (m1 & m2 & -> & Hl).
  assert (E : concat d = (a ++ m1) ++ t :: (m2 ++ w :: b)) by (rewrite H, <- !app_assoc; reflexivity).
  destruct (C19_previous_exact d _ t _ E) as [_ Q]. rewrite app_length, Hl in Q. eexists. split; [exact Q|].
  apply Forall_app in Hm as [_ Hm]. inversion Hm as [|? ? G1 G2]; subst. destruct G1 as [G1|G1]; [congruence|].
  unfold expected_previous. rewrite Ht, (nearest_gap m2 _ G2).
  assert (Nr : nearest (w :: b) = Some v) by (unfold nearest; cbn [find]; unfold tagged_word, is_word; rewrite Hs, Hw; destruct v; [easy|]; cbn; exact Hw).
  rewrite Nr. unfold untagged in G1. destruct v as [|c v]; [easy|]. rewrite (proj2 (mem_In (c :: v) enabled) Hi).
  destruct (val t) as [[|]|]; [| discriminate |]; apply val_with_tag; destruct (closed _); auto.
Qed.
Theorem C19_following_no_hole d a m w b v : concat d = a ++ w :: m ++ b ->
  Forall gap_tok m -> is_space sp w = false -> val w = Some v -> v <> [] -> In v enabled ->
  forall i t, nth_error m i = Some t -> is_space sp t = false ->
  exists t', nth_error (concat (annotate_following sp enabled d)) (length a + 1 + i) = Some t' /\ val t' = Some v.
Proof.
  intros H Hm Hs Hw Hv Hi i t Hn Ht. destruct (nth_error_split _ _ Hn) as (m1 & m2 & -> & Hl).
  assert (E : concat d = (a ++ w :: m1) ++ t :: (m2 ++ b)) by (rewrite H; repeat (rewrite <- app_assoc; cbn [app]); reflexivity).
  destruct (C19_following_exact d _ t _ E) as [_ Q]. rewrite app_length in Q. cbn [length] in Q. rewrite Hl in Q.
  replace (length a + S i) with (length a + 1 + i) in Q by lia. eexists. split; [exact Q|].
  apply Forall_app in Hm as [Hm1 Hm]. inversion Hm as [|? ? G1 G2]; subst. destruct G1 as [G1|G1]; [congruence|].
  unfold expected_following. rewrite Ht.
  assert (Nr : nearest (rev (a ++ w :: m1)) = Some v).
  { rewrite rev_app_distr. cbn [rev]. rewrite <- app_assoc. rewrite nearest_gap; [|now apply Forall_rev]. cbn [app].
    unfold nearest; cbn [find]; unfold tagged_word, is_word; rewrite Hs, Hw; destruct v; [easy|]; cbn; exact Hw. }
  rewrite Nr. unfold untagged in G1. destruct v as [|c v]; [easy|]. rewrite (proj2 (mem_In (c :: v) enabled) Hi).
  destruct (val t) as [[|]|]; [| discriminate |]; apply val_with_tag; auto.
Qed.
End Expand.

Definition tk (s : string) (v : ostr) : tok := mkTok (u s) v None None None None.
Definition sample_doc : doc :=
  [[tk "a" None; tk " " None; tk "b" None]; [tk "c" (Some (u "b-title"))]; [tk "d" None]; [tk "e" (Some (u "b-author"))]].
Example C19_previous_ex : map (map tag) (annotate_previous ascii_space [u "title"] sample_doc)
  = [[Some (u "b-title"); None; Some (u "i-title")]; [Some (u "i-title")]; [None]; [Some (u "b-author")]].
Proof. vm_compute. reflexivity. Qed.
Example C19_following_ex : map (map tag) (annotate_following ascii_space [u "title"] sample_doc)
  = [[None; None; None]; [Some (u "b-title")]; [Some (u "i-title")]; [Some (u "b-author")]].
Proof. vm_compute. reflexivity. Qed.
Example C19_no_hole_ex : exists a m w b, concat sample_doc = a ++ m ++ w :: b /\ length m = 3 /\ Forall (gap_tok ascii_space) m /\ val w = Some (u "title").
Proof.
  exists [], [tk "a" None; tk " " None; tk "b" None], (tk "c" (Some (u "b-title"))). eexists. repeat split.
  repeat constructor; right; reflexivity.
Qed.

Print Assumptions C19_previous_exact.
Print Assumptions C19_following_exact.
Print Assumptions C19_values.
Print Assumptions C19_previous_no_hole.
Print Assumptions C19_following_no_hole.
