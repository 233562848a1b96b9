(** C20 and C53 *)
From Verif Require Import Base ModelTags ProofTags ModelXml ModelTei ModelTeiDoc ModelPostAnnot
  SpecTeiWrite SpecTeiDoc ProofTeiDoc.

(* ---------------------------------------------------------------- *)
(** ** C20 *)
Section C20.
Variable sp : N -> bool.
Variable group : str -> ostr.
Variable lv : level.

(** the words group merging looks at: with a level, those that have a main tag *)
Definition considered (t : tok) : bool :=
  is_word sp t && match lv with LMain => true | LSub => truthy (shown LMain t) end.
Definition has_value (t : tok) : bool := truthy (value (shown lv t)).
(** the group of the nearest considered word before that has a tag *)
Definition group_before (before : list tok) : ostr :=
  match find (fun w => considered w && has_value w) (rev before) with
  | Some w => match value (shown lv w) with Some v => group v | None => None end
  | None => None
  end.
Definition merged (before : list tok) (t : tok) : tok :=
  if considered t && negb (has_value t) then
    match group_before before with
    | Some ((_ :: _) as g) => set_tag_only lv (Some (u "i-" ++ g)) t
    | _ => t
    end
  else t.

Lemma group_before_snoc before t :
  group_before (before ++ [t]) =
  if considered t && has_value t
  then match value (shown lv t) with Some v => group v | None => None end
  else group_before before.
Proof.
  unfold group_before. rewrite rev_app_distr. cbn [rev app find].
  destruct (considered t && has_value t); reflexivity.
Qed.
Lemma step_eq before t :
  merge_group_step sp group lv (group_before before) t = (group_before (before ++ [t]), merged before t).
Proof.
  rewrite group_before_snoc. unfold merge_group_step, merged, considered, has_value, is_word.
  unfold tag_or_preserved_value. rewrite !shown_or. change strip_tag_prefix with value.
  destruct (is_space sp t); cbn [negb andb]; [reflexivity|].
  destruct (match lv with LMain => false | LSub => negb (truthy (shown LMain t)) end) eqn:E.
  - assert (E2 : match lv with LMain => true | LSub => truthy (shown LMain t) end = false).
    { destruct lv; [discriminate|]. now apply negb_true_iff. }
    rewrite E2. reflexivity.
  - assert (E2 : match lv with LMain => true | LSub => truthy (shown LMain t) end = true).
    { destruct lv; [reflexivity|]. now apply negb_false_iff. }
    rewrite E2. cbn [andb].
    destruct (value (shown lv t)) as [[|c v]|] eqn:Ev; cbn [truthy negb];
      [|reflexivity|]; destruct (group_before before) as [[|g gs]|]; reflexivity.
Qed.
Lemma line_eq l : forall before,
  map_state (merge_group_step sp group lv) (group_before before) l =
  (group_before (before ++ l), map (fun bt => merged (fst bt) (snd bt)) (with_before before l)).
Proof.
  induction l as [|t l IH]; intros before; cbn [map_state with_before map].
  - now rewrite app_nil_r.
  - rewrite step_eq, IH, <- app_assoc. reflexivity.
Qed.
Fixpoint merged_doc (before : list tok) (d : doc) : doc :=
  match d with
  | [] => []
  | l :: d' => map (fun bt => merged (fst bt) (snd bt)) (with_before before l) :: merged_doc (before ++ l) d'
  end.
Lemma doc_eq d : forall before,
  snd (map_state (map_state (merge_group_step sp group lv)) (group_before before) d) = merged_doc before d.
Proof.
  induction d as [|l d IH]; intros before; cbn [map_state merged_doc]; [reflexivity|].
  rewrite line_eq. specialize (IH (before ++ l)).
  destruct (map_state (map_state _) _ d). cbn [snd] in *. now rewrite IH.
Qed.
Lemma with_before_nth l : forall before n,
  nth_error (with_before before l) n =
  option_map (fun t => (before ++ firstn n l, t)) (nth_error l n).
Proof.
  induction l as [|t l IH]; intros before [|n]; cbn; [reflexivity|reflexivity|now rewrite app_nil_r|].
  rewrite IH. destruct (nth_error l n); cbn; [|reflexivity]. now rewrite <- app_assoc.
Qed.
Lemma merged_doc_at d : forall before i j,
  tok_at (merged_doc before d) (i, j) =
  option_map (merged (before ++ concat (firstn i d) ++ firstn j (nth i d []))) (tok_at d (i, j)).
Proof.
  induction d as [|l d IH]; intros before i j; unfold tok_at in *; cbn [fst snd merged_doc] in *.
  - destruct i; reflexivity.
  - destruct i as [|i]; cbn [nth_error firstn concat nth app].
    + rewrite nth_error_map, with_before_nth. destruct (nth_error l j); reflexivity.
    + rewrite IH, !app_assoc. reflexivity.
Qed.
End C20.

(** Every token of the result is determined by the token and the words before it:
    [merged] gives a considered word without tag the group tag of the nearest
    tagged one before it. *)
Theorem C20_pointwise : forall sp group lv d i j,
  tok_at (merge_group sp group lv d) (i, j) =
  option_map (merged sp group lv (concat (firstn i d) ++ firstn j (nth i d []))) (tok_at d (i, j)).
Proof.
  intros. unfold merge_group. change (@None str) with (group_before sp group lv []) at 1.
  rewrite doc_eq, merged_doc_at. reflexivity.
Qed.

(** A token that shows a tag is not touched. *)
Theorem C20_tagged_kept : forall sp group lv d i j t,
  tok_at d (i, j) = Some t -> truthy (value (shown lv t)) = true ->
  tok_at (merge_group sp group lv d) (i, j) = Some t.
Proof.
  intros sp group lv d i j t Ht Hv. rewrite C20_pointwise, Ht. cbn [option_map]. unfold merged, has_value.
  rewrite Hv. now rewrite andb_false_r.
Qed.

(** A token that changes is a word without tag (at the level); the new tag is the
    group of a word before it, with only tagless words in between; nothing but
    this tag changes. *)
Theorem C20_changed : forall sp group lv d i j t t',
  tok_at d (i, j) = Some t ->
  tok_at (merge_group sp group lv d) (i, j) = Some t' -> t' <> t ->
  is_word sp t = true /\ truthy (value (shown lv t)) = false /\
  exists pre w mid v g,
    concat (firstn i d) ++ firstn j (nth i d []) = pre ++ w :: mid /\
    value (shown lv w) = Some v /\ group v = Some g /\ g <> [] /\
    Forall (fun x => considered sp lv x = true -> truthy (value (shown lv x)) = false) mid /\
    t' = set_tag_only lv (Some (u "i-" ++ g)) t.
Proof.
  intros sp group lv d i j t t' Ht Ht' Hne. rewrite C20_pointwise, Ht in Ht'. cbn [option_map] in Ht'.
  injection Ht' as <-. unfold merged in *.
  destruct (considered sp lv t && negb (has_value lv t)) eqn:E; [|congruence].
  apply andb_true_iff in E as [E1 E2]. apply negb_true_iff in E2.
  unfold considered in E1. apply andb_true_iff in E1 as [E1 _].
  destruct (group_before _ _ _ _) as [[|c g]|] eqn:G; try congruence.
  split; [exact E1|]. split; [exact E2|]. unfold group_before in G.
  set (before := concat (firstn i d) ++ _) in *. clearbody before.
  destruct (find _ (rev before)) as [w|] eqn:F; [|discriminate].
  destruct (value (shown lv w)) as [v|] eqn:V; [|discriminate].
  assert (H : exists pre mid, before = pre ++ w :: mid /\
    Forall (fun x => considered sp lv x && has_value lv x = false) mid).
  { clear -F. revert w F. induction before as [|x b IH] using rev_ind; intros w F; [discriminate|].
    rewrite rev_app_distr in F. cbn [rev app find] in F.
    destruct (considered sp lv x && has_value lv x) eqn:E.
    - injection F as <-. exists b, []. split; [reflexivity|constructor].
    - destruct (IH w F) as (pre & mid & -> & H). exists pre, (mid ++ [x]).
      split; [now rewrite <- app_assoc|]. apply Forall_app. auto. }
  destruct H as (pre & mid & -> & H). exists pre, w, mid, v, (c :: g).
  split; [reflexivity|]. split; [exact V|]. split; [exact G|]. split; [discriminate|]. split; [|reflexivity].
  eapply Forall_impl; [|exact H]. cbn beta. intros x Hx Hc. rewrite Hc in Hx. exact Hx.
Qed.

(** Every considered word without tag behind a word of a group gets its tag. *)
Theorem C20_complete : forall sp group lv d i j t pre w mid v g,
  tok_at d (i, j) = Some t ->
  considered sp lv t = true -> truthy (value (shown lv t)) = false ->
  concat (firstn i d) ++ firstn j (nth i d []) = pre ++ w :: mid ->
  considered sp lv w = true -> value (shown lv w) = Some v -> v <> [] ->
  Forall (fun x => considered sp lv x = true -> truthy (value (shown lv x)) = false) mid ->
  group v = Some g -> g <> [] ->
  tok_at (merge_group sp group lv d) (i, j) = Some (set_tag_only lv (Some (u "i-" ++ g)) t).
Proof.
  intros sp group lv d i j t pre w mid v g Ht Hc Hv Hb Hw Hwv Hv0 Hm Hg Hg0.
  rewrite C20_pointwise, Ht, Hb. cbn [option_map]. unfold merged, has_value. rewrite Hc, Hv. cbn [negb andb].
  assert (G : group_before sp group lv (pre ++ w :: mid) = Some g).
  { unfold group_before. clear Hb.
    assert (E : find (fun w => considered sp lv w && has_value lv w) (rev (pre ++ w :: mid)) = Some w).
    { induction mid as [|x mid IH] using rev_ind.
      - rewrite rev_app_distr. cbn [rev app find]. unfold has_value. rewrite Hw, Hwv.
        destruct v; [congruence|reflexivity].
      - replace (pre ++ w :: mid ++ [x]) with ((pre ++ w :: mid) ++ [x]) by now rewrite <- app_assoc.
        rewrite rev_app_distr. cbn [rev app find]. apply Forall_app in Hm as [Hm1 Hm2].
        inversion Hm2 as [|? ? Hx ?]; subst. unfold has_value at 1.
        destruct (considered sp lv x); [|apply IH; assumption]. cbn [andb].
        rewrite Hx by reflexivity. apply IH; assumption. }
    rewrite E, Hwv. exact Hg. }
  rewrite G. destruct g; [congruence|reflexivity].
Qed.

Open Scope string_scope.
Open Scope list_scope.
Definition wtok (s : string) (t p : ostr) : tok := mkTok (u s) t None p None None.
Definition ex_group (v : str) : ostr :=
  if starts_with (u "aff-") v then Some (u "aff") else None.
Definition ex_gdoc : doc :=
  [[wtok "x" None None; wtok "Uni" (Some (u "b-aff-org")) None; wtok " " None None; wtok "," None None];
   [wtok "of" None None; wtok "A" None (Some (u "b-title")); wtok "B" None None]].
Example C20_ex : map (map shown_tag) (merge_group ascii_space ex_group LMain ex_gdoc) =
  [[None; Some (u "b-aff-org"); None; Some (u "i-aff")];
   [Some (u "i-aff"); Some (u "b-title"); None]].
Proof. reflexivity. Qed.
Example C20_ex_hyps :
  concat (firstn 1 ex_gdoc) ++ firstn 0 (nth 1 ex_gdoc []) =
    [wtok "x" None None] ++ wtok "Uni" (Some (u "b-aff-org")) None :: [wtok " " None None; wtok "," None None] /\
  tok_at ex_gdoc (1, 0) = Some (wtok "of" None None) /\
  value (shown LMain (wtok "Uni" (Some (u "b-aff-org")) None)) = Some (u "aff-org") /\
  ex_group (u "aff-org") = Some (u "aff").
Proof. repeat split; reflexivity. Qed.
(** Sub level: words without main tag are neither tagged nor looked at. *)
Example C20_ex_sub :
  let w (s : string) t st := mkTok (u s) t st None None None in
  map (map shown_sub_tag) (merge_group ascii_space ex_group LSub
    [[w "a" (Some (u "b-x")) (Some (u "b-aff-y")); w "b" None None; w "c" (Some (u "i-x")) None]])
  = [[Some (u "b-aff-y"); None; Some (u "i-aff")]].
Proof. reflexivity. Qed.

(* ---------------------------------------------------------------- *)
(** ** C53 *)

(** the wanted tag *)
Definition replaced (m : list (str * ostr)) (o : ostr) : ostr :=
  match value o with
  | Some ((_ :: _) as v) =>
      match dict_get v m with Some new => add_tag_prefix new (fst (split_tag_prefix o)) | None => o end
  | _ => o
  end.

Lemma line_at_set sp v l j k x : nth_error l k = Some x ->
  exists x', nth_error (set_tag_line sp LMain j v l) k = Some x' /\ same_text x x' /\
    given LMain x' = (if Nat.eqb j k then v else given LMain x) /\
    (remembered LMain x' = remembered LMain x \/
     exists y, nth_error l j = Some y /\ is_word sp y = true /\
       remembered LMain x' = None /\ value (remembered LMain y) = value (remembered LMain x) /\
       truthy (value (remembered LMain y)) = true).
Proof.
  intros Hx. destruct (tok_at_set sp LMain (0, j) v [l] (0, k) x) as (x' & H1 & H2 & H3 & H4); [exact Hx|].
  exists x'. split; [exact H1|]. split; [exact H2|]. split; [exact (H3 LMain)|].
  destruct (H4 LMain) as [H|(y & A1 & A2 & A3 & A4 & A5 & A6 & A7)]; [auto|]. right. exists y.
  split; [exact A1|]. split; [|auto]. unfold changes in A3. apply andb_true_iff in A3 as [A3 _]. exact A3.
Qed.

Lemma replace_at_other sp m l j k x : j <> k -> nth_error l k = Some x ->
  exists x', nth_error (replace_at sp m l j) k = Some x' /\ same_text x x' /\
    given LMain x' = given LMain x /\
    (remembered LMain x' = remembered LMain x \/
     exists y, nth_error l j = Some y /\ is_word sp y = true /\
       remembered LMain x' = None /\ value (remembered LMain y) = value (remembered LMain x) /\
       truthy (value (remembered LMain y)) = true).
Proof.
  intros Hjk Hx. unfold replace_at.
  assert (Hid : exists x', nth_error l k = Some x' /\ same_text x x' /\ given LMain x' = given LMain x /\
    (remembered LMain x' = remembered LMain x \/
     exists y, nth_error l j = Some y /\ is_word sp y = true /\
       remembered LMain x' = None /\ value (remembered LMain y) = value (remembered LMain x) /\
       truthy (value (remembered LMain y)) = true))
    by (exists x; split; [exact Hx|split; [apply same_text_refl|auto]]).
  destruct (nth_error l j) as [t|] eqn:Ej; [|exact Hid].
  destruct (is_space sp t); [exact Hid|]. destruct (split_tag_prefix _) as [p [[|c v]|]]; try exact Hid.
  destruct (dict_get (c :: v) m) as [new|]; [|exact Hid].
  destruct (line_at_set sp (add_tag_prefix new p) l j k x Hx) as (x' & H1 & H2 & H3 & H4).
  exists x'. rewrite Ej in H4. apply Nat.eqb_neq in Hjk. rewrite Hjk in H3. auto.
Qed.

Section Line.
Variables (sp : N -> bool) (m : list (str * ostr)) (l0 : line) (k : nat) (t : tok).
Hypothesis Hk : nth_error l0 k = Some t.
(** no other word of the line has the same (non-empty) remembered value *)
Definition alone : Prop := forall j y, j <> k -> nth_error l0 j = Some y -> is_word sp y = true ->
  truthy (value (remembered LMain y)) = true -> value (remembered LMain y) <> value (remembered LMain t).

(** relation of a line under processing to the original *)
Definition derived (l : line) : Prop := forall j y, nth_error l0 j = Some y ->
  exists y', nth_error l j = Some y' /\ same_text y y' /\
    (remembered LMain y' = remembered LMain y \/ remembered LMain y' = None).
Lemma derived_step l j : derived l -> derived (replace_at sp m l j).
Proof.
  intros Hd i y Hy. destruct (Hd i y Hy) as (y1 & H1 & H2 & H3).
  assert (Hid : exists y', nth_error l i = Some y' /\ same_text y y' /\
    (remembered LMain y' = remembered LMain y \/ remembered LMain y' = None)) by eauto.
  unfold replace_at. destruct (nth_error l j) as [z|] eqn:Ej; [|exact Hid].
  destruct (is_space sp z); [exact Hid|]. destruct (split_tag_prefix _) as [p [[|c v]|]]; try exact Hid.
  destruct (dict_get (c :: v) m) as [new|]; [|exact Hid].
  destruct (line_at_set sp (add_tag_prefix new p) l j i y1 H1) as (y2 & A1 & A2 & A3 & A4).
  exists y2. split; [exact A1|]. split; [eapply same_text_trans; eassumption|].
  destruct A4 as [A4|(? & _ & _ & A4 & _)]; [rewrite A4; exact H3|auto].
Qed.
Lemma others js : forall l x, ~ In k js -> derived l -> nth_error l k = Some x ->
  (forall j, In j js -> j < length l0) ->
  exists x', nth_error (fold_left (replace_at sp m) js l) k = Some x' /\
    derived (fold_left (replace_at sp m) js l) /\
    same_text x x' /\ given LMain x' = given LMain x /\
    (alone -> remembered LMain x = remembered LMain t -> remembered LMain x' = remembered LMain x).
Proof.
  induction js as [|j js IH]; intros l x Hj Hd Hx Hin.
  - exists x. cbn. split; [exact Hx|]. split; [exact Hd|]. split; [apply same_text_refl|]. auto.
  - cbn [fold_left]. assert (Hjk : j <> k) by (intros ->; apply Hj; now left).
    destruct (replace_at_other sp m l j k x Hjk Hx) as (x1 & A1 & A2 & A3 & A4).
    destruct (IH (replace_at sp m l j) x1) as (x2 & B0 & Bd & B2 & B3 & B4);
      [intros H; apply Hj; now right|now apply derived_step|exact A1|intros i Hi; apply Hin; now right|].
    exists x2. split; [exact B0|]. split; [exact Bd|]. split; [eapply same_text_trans; eassumption|].
    split; [congruence|]. intros Hal Hr.
    destruct A4 as [A4|(y & C1 & C2 & C3 & C4 & C5)].
    + rewrite B4; [exact A4|exact Hal|congruence].
    + exfalso. specialize (Hin j (or_introl eq_refl)).
      destruct (nth_error l0 j) as [y0|] eqn:E0; [|apply nth_error_None in E0; lia].
      destruct (Hd j y0 E0) as (y1 & D1 & [D2 _] & D3). assert (y1 = y) by congruence. subst y1.
      destruct D3 as [D3|D3]; [|rewrite D3 in C5; discriminate].
      apply (Hal j y0 Hjk E0).
      * unfold is_word, is_space in *. now rewrite D2.
      * now rewrite <- D3.
      * rewrite <- D3, C4. now rewrite Hr.
Qed.

Definition filled : Prop := Forall (fun p : str * ostr => truthy (snd p) = true) m.
Lemma dict_get_In v new : dict_get v m = Some new -> exists v', In (v', new) m.
Proof.
  induction m as [|[a b] m' IH]; cbn [dict_get]; [discriminate|].
  destruct (streq v a); [intros [= ->]; exists a; now left|].
  intros H. destruct (IH H) as [v' Hv]. exists v'. now right.
Qed.
Lemma add_prefix_truthy v p : truthy v = true -> truthy (add_tag_prefix v p) = true.
Proof.
  destruct v as [[|c v]|]; try discriminate. intros _. unfold add_tag_prefix. cbn.
  destruct p as [[|a p]|]; reflexivity.
Qed.
Lemma own_step l x : nth_error l k = Some x -> is_space sp x = false -> filled ->
  exists x', nth_error (replace_at sp m l k) k = Some x' /\ same_text x x' /\
    (x' = x /\ replaced m (shown LMain x) = shown LMain x \/
     given LMain x' = replaced m (shown LMain x) /\ truthy (given LMain x') = true).
Proof.
  intros H1 Hxs Hf. unfold replace_at. rewrite H1, Hxs, shown_or. unfold replaced, value.
  destruct (split_tag_prefix (shown LMain x)) as [p v] eqn:Es.
  destruct (strip_tag_prefix (shown LMain x)) as [[|c v']|] eqn:Ev.
  all: assert (v = strip_tag_prefix (shown LMain x)) by (unfold strip_tag_prefix; now rewrite Es); subst v; rewrite Ev; cbn [fst snd].
  1, 3: exists x; split; [exact H1|split; [apply same_text_refl|left; split; reflexivity]].
  destruct (dict_get (c :: v') m) as [new|] eqn:Eg;
    [|exists x; split; [exact H1|split; [apply same_text_refl|left; split; reflexivity]]].
  rewrite (set_tag_line_at sp LMain k _ l x k x H1 H1), Nat.eqb_refl.
  eexists. split; [reflexivity|].
  split; [eapply same_text_trans; [apply set_tag_only_text|apply beside_text]|].
  right. rewrite beside_given, given_set. cbn [lv_eqb fst snd]. rewrite ?Eg. split; [reflexivity|].
  apply add_prefix_truthy. destruct (dict_get_In _ _ Eg) as [w Hw].
  unfold filled in Hf. rewrite Forall_forall in Hf. exact (Hf _ Hw).
Qed.

Lemma oor_truthy a b : truthy a = true -> oor a b = a.
Proof. unfold oor. now intros ->. Qed.
Lemma replace_line_at : is_word sp t = true -> filled ->
  exists t', nth_error (replace_tags_line sp m l0) k = Some t' /\ same_text t t' /\
    (truthy (given LMain t) = true \/ alone -> shown LMain t' = replaced m (shown LMain t)).
Proof.
  intros Hw Hf. unfold replace_tags_line.
  assert (Hlt : k < length l0) by (apply nth_error_Some; congruence).
  assert (E : seq 0 (length l0) = seq 0 k ++ k :: seq (S k) (length l0 - S k)).
  { replace (length l0) with (k + S (length l0 - S k)) at 1 by lia. rewrite seq_app. reflexivity. }
  rewrite E, fold_left_app. cbn [fold_left].
  assert (Hd0 : derived l0) by (intros j y Hy; exists y; split; [exact Hy|split; [apply same_text_refl|auto]]).
  destruct (others (seq 0 k) l0 t) as (x & H1 & Hd & H2 & H3 & H4);
    [rewrite in_seq; lia|exact Hd0|exact Hk|intros j; rewrite in_seq; lia|].
  set (l1 := fold_left _ (seq 0 k) l0) in *.
  assert (Hxs : is_space sp x = false).
  { unfold is_word, is_space in *. destruct H2 as [H2 _]. rewrite <- H2. now apply negb_true_iff. }
  destruct (own_step l1 x H1 Hxs Hf) as (x1 & A1 & A2 & A3).
  destruct (others (seq (S k) (length l0 - S k)) (replace_at sp m l1 k) x1) as (x2 & B1 & _ & B2 & B3 & B4);
    [rewrite in_seq; lia|now apply derived_step|exact A1|intros j; rewrite in_seq; lia|].
  exists x2. split; [exact B1|]. split; [eapply same_text_trans; [exact H2|eapply same_text_trans; eassumption]|].
  change (given LMain) with tag in *. change (remembered LMain) with ptag in *.
  intros Hc. assert (Hsx : shown LMain x = shown LMain t).
  { unfold shown, shown_tag. destruct Hc as [Hg|Hal]; [rewrite !oor_truthy by congruence; exact H3|].
    rewrite H3, H4 by auto. reflexivity. }
  destruct A3 as [[-> A3]|[A3 A4]].
  - rewrite <- Hsx, A3. unfold shown, shown_tag.
    destruct Hc as [Hg|Hal]; [rewrite !oor_truthy by congruence; exact B3|].
    rewrite B3, B4 by auto. reflexivity.
  - unfold shown at 1, shown_tag. rewrite oor_truthy by congruence. congruence.
Qed.
End Line.

Lemma tok_at_replace sp m d i j : tok_at (replace_tags sp m d) (i, j) =
  match nth_error d i with Some l => nth_error (replace_tags_line sp m l) j | None => None end.
Proof. unfold tok_at, replace_tags. cbn [fst snd]. unfold doc, line in *. rewrite nth_error_map. now destruct (nth_error d i). Qed.

(** A word with a given tag, or whose remembered tag is not also remembered by
    another word of its line, shows exactly the replaced tag afterwards: the new
    name with the old prefix if its name is in the mapping, the old tag otherwise. *)
Theorem C53_replaced sp m d i j l t :
  filled m -> nth_error d i = Some l -> nth_error l j = Some t -> is_word sp t = true ->
  truthy (tag t) = true \/
  (forall j' t', j' <> j -> nth_error l j' = Some t' -> is_word sp t' = true ->
     truthy (value (ptag t')) = true -> value (ptag t') <> value (ptag t)) ->
  exists t', tok_at (replace_tags sp m d) (i, j) = Some t' /\ same_text t t' /\
    shown_tag t' = replaced m (shown_tag t).
Proof.
  intros Hf Hl Hj Hw Hc. rewrite tok_at_replace; unfold doc, line in *; rewrite Hl.
  destruct (replace_line_at sp m l j t Hj Hw Hf) as (t' & A & B & C).
  exists t'. split; [exact A|]. split; [exact B|]. exact (C Hc).
Qed.

(** nothing but tags changes *)
Theorem C53_layout sp m d : same_layout d (replace_tags sp m d).
Proof.
  apply Forall2_map_r. intros l. unfold replace_tags_line. generalize (seq 0 (length l)) as js. intros js.
  revert l. induction js as [|j js IH]; intros l; [apply Forall2_refl', same_text_refl|].
  cbn [fold_left]. eapply Forall2_trans'; [apply same_text_trans| |apply IH].
  unfold replace_at. destruct (nth_error l j) as [x|]; [|apply Forall2_refl', same_text_refl].
  destruct (is_space sp x); [apply Forall2_refl', same_text_refl|].
  destruct (split_tag_prefix _) as [p [[|c v]|]]; try apply Forall2_refl', same_text_refl.
  destruct (dict_get (c :: v) m); [|apply Forall2_refl', same_text_refl].
  apply set_tag_line_text.
Qed.
(** spaces keep their tag attribute *)
Theorem C53_spaces sp m d i j t : tok_at d (i, j) = Some t -> is_space sp t = true ->
  exists t', tok_at (replace_tags sp m d) (i, j) = Some t' /\ tag t' = tag t /\ same_text t t'.
Proof.
  unfold tok_at at 1. cbn [fst snd]. unfold doc, line in *.
  destruct (nth_error d i) as [l|] eqn:El; [|discriminate]. intros Hj Hs.
  rewrite tok_at_replace; unfold doc, line in *; rewrite El. unfold replace_tags_line. generalize (seq 0 (length l)) as js. intros js.
  clear El. revert l t Hj Hs. induction js as [|k js IH]; intros l t Hj Hs; cbn [fold_left].
  - exists t. split; [exact Hj|]. split; [reflexivity|apply same_text_refl].
  - assert (H : exists t1, nth_error (replace_at sp m l k) j = Some t1 /\ tag t1 = tag t /\ same_text t t1).
    { destruct (Nat.eq_dec k j) as [->|Hne].
      - unfold replace_at. rewrite Hj, Hs. exists t. split; [exact Hj|]. split; [reflexivity|apply same_text_refl].
      - destruct (replace_at_other sp m l k j t Hne Hj) as (t1 & A & B & C & _). exists t1. auto. }
    destruct H as (t1 & H1 & H2 & H3).
    destruct (IH (replace_at sp m l k) t1 H1) as (t2 & A & B & C).
    { unfold is_space in *. destruct H3 as [H3 _]. now rewrite <- H3. }
    exists t2. split; [exact A|]. split; [congruence|]. eapply same_text_trans; eassumption.
Qed.

Definition ex_map : list (str * ostr) := [(u "sec", Some (u "section")); (u "fig", Some (u "figure"))].
Example C53_ex_filled : filled ex_map.
Proof. repeat constructor. Qed.
Example C53_ex : map (map shown_tag) (replace_tags ascii_space ex_map
    [[wtok "a" (Some (u "b-sec")) None; wtok " " (Some (u "i-sec")) None; wtok "b" (Some (u "i-sec")) (Some (u "i-fig"));
      wtok "c" (Some (u "b-p")) None; wtok "d" None (Some (u "b-sec")); wtok "e" None None]])
  = [[Some (u "b-section"); Some (u "i-sec"); Some (u "i-section"); Some (u "b-p"); Some (u "b-section"); None]].
Proof. reflexivity. Qed.

(** Two words of one line that only remember the tag: the first is replaced and
    this makes the document forget the tag of the second. *)
Theorem C53_remembered_refuted : exists d t t', 
  tok_at d (0, 1) = Some t /\ is_word ascii_space t = true /\
  shown_tag t = Some (u "i-sec") /\
  tok_at (replace_tags ascii_space ex_map d) (0, 1) = Some t' /\
  shown_tag t' = None /\ replaced ex_map (shown_tag t) = Some (u "i-section").
Proof.
  exists [[wtok "a" None (Some (u "b-sec")); wtok "b" None (Some (u "i-sec"))]].
  do 2 eexists. repeat split; reflexivity.
Qed.

Print Assumptions C20_pointwise.
Print Assumptions C20_tagged_kept.
Print Assumptions C20_changed.
Print Assumptions C20_complete.
Print Assumptions C53_replaced.
Print Assumptions C53_layout.
Print Assumptions C53_spaces.
Print Assumptions C53_remembered_refuted.
