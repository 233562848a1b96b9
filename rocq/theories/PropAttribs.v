(** C112, C113: tags as attributes of tokens; merging of documents. *)
From Coq Require Import DecimalString DecimalFacts DecimalZ.
From Verif Require Import Base ModelTags ModelTokenize ModelXml ModelTei ModelTeiDoc ModelJatsText ModelAttribs.
Open Scope string_scope.
Open Scope list_scope.
Open Scope nat_scope.

(* ---------------------------------------------------------------- *)
(** ** Specification: scopes and levels *)
(** no scope: none, or the empty text *)
Definition no_scope (s : ostr) : Prop := s = None \/ s = Some [].
Definition same_scope (s s' : ostr) : Prop := s = s' \/ (no_scope s /\ no_scope s').
(** levels that are numbers, or texts of numbers other than 0; no level is level 0, and so is the empty text *)
Inductive level_number : tag_level -> Z -> Prop :=
| number_none : level_number NoLevel 0
| number_empty : level_number (TextLevel []) 0
| number_int z : level_number (IntLevel z) z
| number_text z : z <> 0%Z -> level_number (TextLevel (int_text z)) z.
(** the two kinds of tags *)
Definition kind (n : str) : Prop := n = u "tag" \/ n = u "preserved_tag".

(* ---------------------------------------------------------------- *)
(** ** Names of attributes *)
Definition in_number (c : N) : Prop := c = 45%N \/ (48 <= c <= 57)%N.
Lemma uint_chars d : Forall in_number (u (NilEmpty.string_of_uint d)).
Proof. induction d; cbn [NilEmpty.string_of_uint]; [constructor|..]; (constructor; [right; vm_compute; split; discriminate|exact IHd]). Qed.
Lemma uint_chars0 d : Forall in_number (u (NilZero.string_of_uint d)) /\ u (NilZero.string_of_uint d) <> [].
Proof.
  destruct d; cbn [NilZero.string_of_uint]; (split; [|discriminate]); try (apply (uint_chars (Decimal.D0 d)) || apply (uint_chars (Decimal.D1 d)) || apply (uint_chars (Decimal.D2 d)) || apply (uint_chars (Decimal.D3 d)) || apply (uint_chars (Decimal.D4 d)) || apply (uint_chars (Decimal.D5 d)) || apply (uint_chars (Decimal.D6 d)) || apply (uint_chars (Decimal.D7 d)) || apply (uint_chars (Decimal.D8 d)) || apply (uint_chars (Decimal.D9 d))).
  constructor; [right; vm_compute; split; discriminate|constructor].
Qed.
Lemma int_chars z : Forall in_number (int_text z) /\ int_text z <> [].
Proof.
  unfold int_text. destruct (Z.to_int z) as [d|d]; cbn [NilZero.string_of_int]; [apply uint_chars0|]. split; [|discriminate].
  constructor; [now left|apply uint_chars0].
Qed.
Lemma u_inj s s' : u s = u s' -> s = s'.
Proof.
  unfold u. intros H. rewrite <- (string_of_list_ascii_of_string s), <- (string_of_list_ascii_of_string s'). f_equal.
  revert H. generalize (list_ascii_of_string s) as l, (list_ascii_of_string s') as l'. induction l as [|a l IH]; intros [|b l'] H; try discriminate; [reflexivity|].
  injection H as H1 H2. f_equal; [|now apply IH]. apply (f_equal ascii_of_N) in H1. now rewrite !ascii_N_embedding in H1.
Qed.
Lemma not_nil z : Z.to_int z <> Decimal.Pos Decimal.Nil /\ Z.to_int z <> Decimal.Neg Decimal.Nil.
Proof. split; intros E; pose proof (DecimalZ.of_to z) as F; rewrite E in F; cbn in F; subst z; discriminate. Qed.
Lemma int_text_inj z z' : int_text z = int_text z' -> z = z'.
Proof.
  intros H. apply u_inj in H. apply (f_equal NilZero.int_of_string) in H. rewrite !NilZero.isi in H by apply not_nil.
  injection H as H. rewrite <- (DecimalZ.of_to z), <- (DecimalZ.of_to z'). now rewrite H.
Qed.
(** where a character is for the last time *)
Lemma last_unique (c : N) a b a' b' : a ++ c :: b = a' ++ c :: b' -> ~ In c b -> ~ In c b' -> a = a' /\ b = b'.
Proof.
  revert a'. induction a as [|x a IH]; intros [|y a'] H Hb Hb'; cbn [app] in H.
  - injection H as H. auto.
  - injection H as <- H. exfalso. apply Hb. rewrite H. apply in_or_app. right. now left.
  - injection H as -> H. exfalso. apply Hb'. rewrite <- H. apply in_or_app. right. now left.
  - injection H as -> H. destruct (IH _ H Hb Hb') as [-> ->]. auto.
Qed.
(** what comes before the name *)
Definition scope_part (s : ostr) : str := match s with Some ((_ :: _) as x) => x ++ u "-" | _ => [] end.
Definition level_part (z : Z) : str := if (z =? 0)%Z then [] else u "level" ++ int_text z ++ u "_".
Lemma name_parts n s l z : level_number l z -> scoped_name n s l = (scope_part s ++ level_part z) ++ n.
Proof.
  intros [| |z'|z' Hz]; unfold scoped_name, scope_part, level_part; cbn [level_given level_text].
  - cbn [Z.eqb]. destruct s as [[|x s]|]; rewrite ?app_nil_r; try reflexivity. now rewrite <- app_assoc.
  - cbn [Z.eqb nonempty]. destruct s as [[|x s]|]; rewrite ?app_nil_r; try reflexivity. now rewrite <- app_assoc.
  - destruct (z' =? 0)%Z; cbn [negb]; destruct s as [[|x s]|]; rewrite ?app_nil_r, <- ?app_assoc; reflexivity.
  - rewrite (proj2 (Z.eqb_neq _ _) Hz). destruct (int_text z') as [|c t] eqn:E; [now destruct (int_chars z') as [_ N]|]. cbn [nonempty]. destruct s as [[|x s]|]; rewrite <- ?app_assoc; reflexivity.
Qed.
Lemma scope_part_same s s' : scope_part s = scope_part s' <-> same_scope s s'.
Proof.
  unfold scope_part, same_scope, no_scope. split.
  - destruct s as [[|x s]|], s' as [[|x' s']|]; auto; try discriminate; intros H; left; try (now apply app_inj_tail in H as [H _]; rewrite H); try discriminate H.
  - intros [-> | [[-> | ->] [-> | ->]]]; reflexivity.
Qed.
Lemma scope_part_end s : scope_part s = [] \/ exists q, scope_part s = q ++ [45%N].
Proof. destruct s as [[|x s]|]; [now left| |now left]. right. now exists (x :: s). Qed.
Lemma level_part_end z : z = 0%Z /\ level_part z = [] \/ z <> 0%Z /\ level_part z = (u "leve" ++ 108%N :: int_text z) ++ [95%N].
Proof.
  unfold level_part. destruct (z =? 0)%Z eqn:E; [left; split; [now apply Z.eqb_eq|reflexivity]|]. right. split; [now apply Z.eqb_neq|]. rewrite <- app_assoc. reflexivity.
Qed.
Lemma no_l z : ~ In 108%N (int_text z).
Proof. destruct (int_chars z) as [H _]. rewrite Forall_forall in H. intros I. destruct (H _ I) as [E|E]; [discriminate|lia]. Qed.
Lemma parts_same s z s' z' : scope_part s ++ level_part z = scope_part s' ++ level_part z' <-> same_scope s s' /\ z = z'.
Proof.
  rewrite <- scope_part_same. split; [|now intros [-> ->]]. intros H.
  destruct (level_part_end z) as [[-> E]|[Hz E]], (level_part_end z') as [[-> E']|[Hz' E']]; rewrite ?E, ?E' in H; rewrite ?app_nil_r in H; auto.
  - exfalso. rewrite app_assoc in H. destruct (scope_part_end s) as [F|[q F]]; rewrite F in H; [now apply app_cons_not_nil in H|]. apply app_inj_tail in H as [_ H]. discriminate.
  - exfalso. rewrite app_assoc in H. symmetry in H. destruct (scope_part_end s') as [F|[q F]]; rewrite F in H; [now apply app_cons_not_nil in H|]. apply app_inj_tail in H as [_ H]. discriminate.
  - rewrite !app_assoc in H. apply app_inj_tail in H as [H _].
    apply last_unique in H as [H1 H2]; [|apply no_l|apply no_l]. split; [now apply app_inv_tail in H1|now apply int_text_inj].
Qed.
Lemma parts_preserved s z s' z' : scope_part s ++ level_part z <> (scope_part s' ++ level_part z') ++ u "preserved_".
Proof.
  intros H. destruct (level_part_end z) as [[-> E]|[Hz E]]; rewrite E in H.
  - rewrite app_nil_r in H. change (u "preserved_") with (u "preserved" ++ [95%N]) in H. rewrite app_assoc in H.
    destruct (scope_part_end s) as [F|[q F]]; rewrite F in H; [now apply app_cons_not_nil in H|]. apply app_inj_tail in H as [_ H]. discriminate.
  - change (u "preserved_") with (u "preserve" ++ [100%N] ++ [95%N]) in H. rewrite !app_assoc in H. apply app_inj_tail in H as [H _].
    destruct (int_chars z) as [C D]. destruct (exists_last D) as (q & c & F). rewrite F in H, C. rewrite app_comm_cons, !app_assoc in H. apply app_inj_tail in H as [_ H].
    apply Forall_app in C as [_ C]. inversion C as [|? ? C1 _]; subst. destruct C1 as [C1|C1]; [discriminate|lia].
Qed.
(** The attributes of two tags are the same exactly if kind, scope and level are the same. *)
Theorem C112_names n s l z n' s' l' z' : kind n -> kind n' -> level_number l z -> level_number l' z' ->
  scoped_name n s l = scoped_name n' s' l' <-> n = n' /\ same_scope s s' /\ z = z'.
Proof.
  intros K K' L L'. rewrite (name_parts _ _ _ _ L), (name_parts _ _ _ _ L'). split; [|intros (-> & H & ->); f_equal; now apply parts_same].
  intros H. destruct K as [-> | ->], K' as [-> | ->].
  - apply app_inv_tail in H. split; [reflexivity|now apply parts_same].
  - exfalso. change (u "preserved_tag") with (u "preserved_" ++ u "tag") in H. rewrite app_assoc in H. apply app_inv_tail in H. now apply parts_preserved in H.
  - exfalso. change (u "preserved_tag") with (u "preserved_" ++ u "tag") in H. rewrite app_assoc in H. apply app_inv_tail in H. symmetry in H. now apply parts_preserved in H.
  - apply app_inv_tail in H. split; [reflexivity|now apply parts_same].
Qed.
(** with texts as levels they can be the same by accident *)
Theorem C112_names_refuted : exists s l s' l', scoped_name (u "tag") s (TextLevel l) = scoped_name (u "tag") s' (TextLevel l') /\ ~ same_scope s s' /\ l <> l'.
Proof.
  exists (Some (u "a")), (u "x-levely"), (Some (u "a-levelx")), (u "y"). split; [vm_compute; reflexivity|]. split; [|discriminate]. intros [H|[[H|H] _]]; discriminate.
Qed.

(* ---------------------------------------------------------------- *)
(** ** Dictionaries *)
Lemma dict_del_same {V} k (d : list (str * V)) : dict_get k (dict_del k d) = None.
Proof.
  induction d as [|[k' v] d IH]; [reflexivity|]. cbn [dict_del filter fst]. destruct (streq k k') eqn:E; cbn [negb]; [exact IH|]. cbn [dict_get]. now rewrite E.
Qed.
Lemma dict_del_other {V} k k' (d : list (str * V)) : k <> k' -> dict_get k' (dict_del k d) = dict_get k' d.
Proof.
  intros H. induction d as [|[k2 v] d IH]; [reflexivity|]. cbn [dict_del filter fst dict_get]. destruct (streq k k2) eqn:E; cbn [negb].
  - apply streq_true in E as <-. destruct (streq k' k) eqn:E2; [apply streq_true in E2; congruence|exact IH].
  - cbn [dict_get]. destruct (streq k' k2); [reflexivity|exact IH].
Qed.
Lemma set_or_remove_same k v t : dict_get k (a_attrib (set_or_remove k v t)) = v.
Proof. unfold set_or_remove. cbn [a_attrib]. destruct v as [v|]; [apply dict_get_set_same|apply dict_del_same]. Qed.
Lemma set_or_remove_other k k' v t : k <> k' -> dict_get k' (a_attrib (set_or_remove k v t)) = dict_get k' (a_attrib t).
Proof. intros H. unfold set_or_remove. cbn [a_attrib]. destruct v as [v|]; [now apply dict_get_set_other|now apply dict_del_other]. Qed.

(* ---------------------------------------------------------------- *)
(** ** Setting and getting tags *)
(** a tag of a token, named by its kind, scope and level *)
Definition tag_of (n : str) (s : ostr) (l : tag_level) (t : atok) : ostr := dict_get (scoped_name n s l) (a_attrib t).
Theorem C112_get_set s l z v t n s' l' z' : kind n -> level_number l z -> level_number l' z' ->
  let t' := a_set_tag_only s l v t in
  a_text t' = a_text t /\ a_ws t' = a_ws t /\
  (n = u "tag" /\ same_scope s s' /\ z = z' -> tag_of n s' l' t' = v) /\
  (~ (n = u "tag" /\ same_scope s s' /\ z = z') -> tag_of n s' l' t' = tag_of n s' l' t).
Proof.
  intros K L L'. cbv zeta. split; [reflexivity|]. split; [reflexivity|]. unfold tag_of, a_set_tag_only. pose proof (C112_names TAG s l z n s' l' z' (or_introl eq_refl) K L L') as E. split; intros H.
  - rewrite (proj2 E); [apply set_or_remove_same|]. destruct H as (H & H'). split; [now symmetry|exact H'].
  - apply set_or_remove_other. intros F. apply E in F as (F & F'). apply H. split; [now symmetry|exact F'].
Qed.
(** tags by scope, for any kind of value *)
Section ByScope.
Context {V : Type}.
Variable n : str.
(** the key of a scope *)
Definition scope_key (sc : ostr) : str := match sc with None => n | Some s => s ++ u "-" ++ n end.
Lemma scope_key_inj sc sc' : scope_key sc = scope_key sc' -> sc = sc'.
Proof.
  destruct sc as [s|], sc' as [s'|]; cbn [scope_key]; intros H; [apply app_inv_tail in H; congruence| | |reflexivity]; exfalso; apply (f_equal (@length N)) in H; rewrite !app_length in H; cbn in H; lia.
Qed.
Lemma ends_with_spec suf k : ends_with suf k = true <-> exists r, k = r ++ suf.
Proof.
  unfold ends_with. rewrite starts_with_spec. split; intros [r H].
  - exists (rev r). apply (f_equal (@rev N)) in H. now rewrite rev_app_distr, !rev_involutive in H.
  - exists (rev r). now rewrite H, rev_app_distr.
Qed.
Lemma by_scope_in (d : list (str * V)) sc v : In (sc, v) (by_scope d n) <-> In (scope_key sc, v) d.
Proof.
  unfold by_scope. rewrite in_flat_map. split.
  - intros ([k w] & Hk & H). cbn [fst snd] in H. destruct (streq k n) eqn:E.
    + apply streq_true in E. subst k. rewrite orb_true_r in H. destruct H as [H|[]]. injection H as <- <-. exact Hk.
    + rewrite orb_false_r in H. destruct (ends_with (u "-" ++ n) k) eqn:F; [|destruct H]. destruct H as [H|[]]. injection H as <- <-. apply ends_with_spec in F as [r ->]. cbn [scope_key].
      rewrite app_length, Nat.add_sub, firstn_app, Nat.sub_diag, firstn_all. cbn [firstn]. now rewrite app_nil_r.
  - intros H. exists (scope_key sc, v). split; [exact H|]. cbn [fst snd]. destruct sc as [s|]; cbn [scope_key].
    + assert (F : ends_with (u "-" ++ n) (s ++ u "-" ++ n) = true) by (apply ends_with_spec; now exists s). rewrite F. cbn [orb].
      assert (E : streq (s ++ u "-" ++ n) n = false). { apply streq_false. intros E. apply (f_equal (@length N)) in E. rewrite !app_length in E. cbn in E. lia. }
      rewrite E. left. f_equal. rewrite (app_length s), Nat.add_sub, firstn_app, Nat.sub_diag, firstn_all. cbn [firstn]. now rewrite app_nil_r.
    + rewrite streq_refl, orb_true_r. now left.
Qed.
Lemma by_scope_keys (d : list (str * V)) : NoDup (map fst d) -> NoDup (map fst (by_scope d n)).
Proof.
  induction d as [|[k v] d IH]; intros H; [constructor|]. inversion H as [|? ? Hk Hd]; subst. unfold by_scope. cbn [flat_map fst snd].
  destruct (ends_with (u "-" ++ n) k || streq k n) eqn:E; [|exact (IH Hd)]. cbn [app map fst]. constructor; [|exact (IH Hd)].
  intros I. apply in_map_iff in I as ([sc w] & Esc & I). cbn [fst] in Esc. change (In (sc, w) (by_scope d n)) in I. apply by_scope_in in I.
  assert (J : In (sc, v) (by_scope [(k, v)] n)) by (unfold by_scope; cbn [flat_map fst snd]; rewrite E; left; now rewrite Esc).
  apply by_scope_in in J as [J|[]]. injection J as J. apply Hk. rewrite J. change (scope_key sc) with (fst (scope_key sc, w)). now apply in_map.
Qed.
Lemma dict_get_in (d : list (str * V)) k v : NoDup (map fst d) -> dict_get k d = Some v <-> In (k, v) d.
Proof.
  induction d as [|[k' w] d IH]; intros H; [cbn; split; [discriminate|easy]|]. inversion H as [|? ? Hk Hd]; subst. cbn [dict_get In]. destruct (streq k k') eqn:E.
  - apply streq_true in E as <-. split; [intros [= ->]; now left|]. intros [[= ->]|I]; [reflexivity|]. exfalso. apply Hk. change k with (fst (k, v)). now apply in_map.
  - apply streq_false in E. rewrite (IH Hd). split; [now right|]. intros [[= <- _]|I]; [congruence|exact I].
Qed.
End ByScope.
(** the tags by scope: those without a level *)
Theorem C112_by_scope t : NoDup (map fst (a_attrib t)) ->
  NoDup (map fst (a_tag_by_scope t)) /\
  (forall v, In (None, v) (a_tag_by_scope t) <-> a_get_tag None NoLevel t = Some v) /\
  (forall s v, s <> [] -> In (Some s, v) (a_tag_by_scope t) <-> a_get_tag (Some s) NoLevel t = Some v).
Proof.
  intros H. split; [now apply by_scope_keys|]. unfold a_tag_by_scope, a_get_tag. split.
  - intros v. rewrite by_scope_in. symmetry. now apply dict_get_in.
  - intros s v Hs. rewrite by_scope_in. symmetry. destruct s as [|x s]; [easy|]. exact (dict_get_in _ _ _ H).
Qed.
(** tokens keep one value for every key *)
Lemma dict_set_keys {V} k (v : V) d : forall k', In k' (map fst (dict_set k v d)) <-> k' = k \/ In k' (map fst d).
Proof.
  induction d as [|[k2 w] d IH]; intros k'; cbn [dict_set map fst In]; [intuition congruence|]. destruct (streq k k2) eqn:E; cbn [map fst In].
  - apply streq_true in E as <-. intuition congruence.
  - rewrite IH. intuition congruence.
Qed.
Lemma dict_set_NoDup {V} k (v : V) d : NoDup (map fst d) -> NoDup (map fst (dict_set k v d)).
Proof.
  induction d as [|[k2 w] d IH]; intros H; cbn [dict_set map fst]; [repeat constructor; easy|]. inversion H as [|? ? Hk Hd]; subst. destruct (streq k k2) eqn:E; cbn [map fst].
  - now constructor.
  - constructor; [|now apply IH]. rewrite dict_set_keys. intros [->|I]; [now rewrite streq_refl in E|contradiction].
Qed.
Lemma dict_del_NoDup {V} k (d : list (str * V)) : NoDup (map fst d) -> NoDup (map fst (dict_del k d)).
Proof.
  induction d as [|[k2 w] d IH]; intros H; [constructor|]. inversion H as [|? ? Hk Hd]; subst. unfold dict_del. cbn [filter fst]. destruct (streq k k2); cbn [negb]; [exact (IH Hd)|].
  cbn [map fst]. constructor; [|exact (IH Hd)]. intros I. apply Hk. apply in_map_iff in I as (x & E & I). apply filter_In in I as [I _]. rewrite <- E. now apply in_map.
Qed.
Definition one_value (t : atok) : Prop := NoDup (map fst (a_attrib t)).
Theorem C112_one_value : (forall x tg sb w, one_value (new_token x tg sb w)) /\ forall k v t, one_value t -> one_value (set_or_remove k v t).
Proof.
  split.
  - intros x tg sb w. unfold one_value, new_token. cbn [a_attrib]. assert (N0 : NoDup (map fst (@nil (str * str)))) by constructor.
    destruct tg, sb; repeat apply dict_set_NoDup; exact N0.
  - intros k [v|] t H; unfold one_value, set_or_remove; cbn [a_attrib]; [now apply dict_set_NoDup|now apply dict_del_NoDup].
Qed.

(* ---------------------------------------------------------------- *)
(** ** The four tags of the other models *)
(** a token as the other models have it: without scope, no level and level 2 *)
Definition view (t : atok) : tok :=
  mkTok (a_text t) (a_get_tag None NoLevel t) (a_get_tag None (IntLevel 2) t) (a_get_preserved None NoLevel t) (a_get_preserved None (IntLevel 2) t) (a_ws t).
Definition level_of (lv : level) : tag_level := match lv with LMain => NoLevel | LSub => IntLevel 2 end.
Lemma view_text t : tx (view t) = a_text t.
Proof. reflexivity. Qed.
Lemma view_tag lv t : get_tag lv (view t) = a_get_tag None (level_of lv) t.
Proof. now destruct lv. Qed.
Lemma view_preserved lv t : get_preserved_tag lv (view t) = a_get_preserved None (level_of lv) t.
Proof. now destruct lv. Qed.
Lemma view_or lv t : tag_or_preserved lv (view t) = a_tag_or_preserved None (level_of lv) t.
Proof. unfold tag_or_preserved, a_tag_or_preserved. now rewrite view_tag, view_preserved. Qed.
Lemma view_new x tg sb w : view (new_token x tg sb w) = mkTok x tg sb None None w.
Proof.
  unfold view, a_get_tag, a_get_preserved, new_token. cbn [a_text a_ws a_attrib].
  destruct tg, sb; reflexivity.
Qed.
Lemma view_set_tag_only lv v t : view (a_set_tag_only None (level_of lv) v t) = set_tag_only lv v (view t).
Proof.
  destruct lv; unfold view, a_set_tag_only, set_tag_only, a_get_tag, a_get_preserved; cbn [level_of tx tag sub ptag psub ws]; f_equal; try apply set_or_remove_same; apply set_or_remove_other; discriminate.
Qed.
Lemma view_set_preserved lv v t : view (a_set_preserved (level_of lv) v t) = set_preserved_tag lv v (view t).
Proof.
  destruct lv; unfold view, a_set_preserved, set_preserved_tag, a_get_tag, a_get_preserved; cbn [level_of tx tag sub ptag psub ws]; f_equal; try apply set_or_remove_same; apply set_or_remove_other; discriminate.
Qed.
Lemma map_update {X Y} (g : X -> Y) (f : X -> X) (f' : Y -> Y) : (forall x, g (f x) = f' (g x)) -> forall l j, map g (update_nth j f l) = update_nth j f' (map g l).
Proof. intros H. induction l as [|x l IH]; intros [|j]; cbn [update_nth map]; [reflexivity|reflexivity|now rewrite H|now rewrite IH]. Qed.
Lemma view_clear_same lv j ts : map view (a_clear_same (level_of lv) j ts) = clear_same_preserved lv j (map view ts).
Proof.
  unfold a_clear_same, clear_same_preserved. rewrite nth_error_map. destruct (nth_error ts j) as [t|]; [|reflexivity]. cbn [option_map]. rewrite view_preserved.
  destruct (truthy (strip_tag_prefix (a_get_preserved None (level_of lv) t))); [|reflexivity]. rewrite !map_map. apply map_ext. intros x. rewrite view_preserved.
  destruct (ostreq _ _); [apply view_set_preserved|reflexivity].
Qed.
Section Refine.
Variable sp : N -> bool.
Lemma view_set_tag lv j v ts : map view (a_set_tag sp None (level_of lv) j v ts) = set_tag_line sp lv j v (map view ts).
Proof.
  unfold a_set_tag, set_tag_line. rewrite nth_error_map. destruct (nth_error ts j) as [t|]; [|reflexivity]. cbn [option_map]. unfold is_space. rewrite view_text.
  pose proof (map_update view _ _ (view_set_tag_only lv v) ts j) as U. destruct (blank sp (a_text t)); [exact U|]. rewrite view_or. destruct (ostreq _ _); [exact U|].
  destruct lv; cbn [level_of]; [|exact (eq_trans (view_clear_same LSub _ _) (f_equal _ U))].
  exact (eq_trans (view_clear_same LSub _ _) (f_equal (clear_same_preserved LSub j) (eq_trans (view_clear_same LMain _ _) (f_equal _ U)))).
Qed.
(** what the annotators and the construction of a document do to tokens: with attributes ... *)
Inductive change :=
| SetTag (lv : level) (ij : nat * nat) (v : ostr) | SetTagOnly (lv : level) (ij : nat * nat) (v : ostr) | SetSubTagOnly (ij : nat * nat) (v : ostr)
| ClearPreservedSub (ij : nat * nat) | ClearPreservedOnly (lv : level) (ij : nat * nat)
| MapTags (tag_fn : ostr -> ostr) (lv : level) | PreserveTags (mapping : list (str * str)) | ResetTags.
Definition at_token {T} (ij : nat * nat) (f : T -> T) (d : list (list T)) : list (list T) := update_nth (fst ij) (update_nth (snd ij) f) d.
Definition with_attributes (c : change) (d : list (list atok)) : list (list atok) :=
  match c with
  | SetTag lv ij v => update_nth (fst ij) (a_set_tag sp None (level_of lv) (snd ij) v) d
  | SetTagOnly lv ij v => at_token ij (a_set_tag_only None (level_of lv) v) d
  | SetSubTagOnly ij v => at_token ij (a_set_sub_tag_only v) d
  | ClearPreservedSub ij => at_token ij a_clear_preserved_sub d
  | ClearPreservedOnly lv ij => at_token ij (a_clear_preserved_only None (level_of lv)) d
  | MapTags f lv => map (map (a_map_tag f (level_of lv))) d
  | PreserveTags m => map (map (a_preserve m)) d
  | ResetTags => map (map a_reset) d
  end.
(** ... and with the four tags *)
Definition with_fields (c : change) (d : doc) : doc :=
  match c with
  | SetTag lv ij v => set_tag sp lv ij v d
  | SetTagOnly lv ij v => at_token ij (set_tag_only lv v) d
  | SetSubTagOnly ij v => at_token ij (set_tag_only LSub v) d
  | ClearPreservedSub ij => at_token ij (clear_preserved_tag_only LSub) d
  | ClearPreservedOnly lv ij => at_token ij (clear_preserved_tag_only lv) d
  | MapTags f lv => map_token_tags f lv d
  | PreserveTags m => map (map (preserve_tok m)) d
  | ResetTags => map (map reset_tok) d
  end.
Lemma view_clear_only lv t : view (a_clear_preserved_only None (level_of lv) t) = clear_preserved_tag_only lv (view t).
Proof. exact (view_set_preserved lv None t). Qed.
Lemma view_at f g ij d : (forall t, view (f t) = g (view t)) -> map (map view) (at_token ij f d) = at_token ij g (map (map view) d).
Proof. intros H. apply map_update. intros l. now apply map_update. Qed.
Lemma view_all f g d : (forall t, view (f t) = g (view t)) -> map (map view) (map (map f) d) = map (map g) (map (map view) d).
Proof. intros H. rewrite !map_map. apply map_ext. intros l. rewrite !map_map. now apply map_ext. Qed.
Lemma view_change c d : map (map view) (with_attributes c d) = with_fields c (map (map view) d).
Proof.
  destruct c as [lv ij v|lv ij v|ij v|ij|lv ij|f lv|m|]; cbn [with_attributes with_fields].
  - apply map_update. intros l. apply view_set_tag.
  - apply view_at. apply view_set_tag_only.
  - apply view_at. intros t. exact (view_set_tag_only LSub v t).
  - apply view_at. intros t. exact (view_set_preserved LSub None t).
  - apply view_at. apply view_clear_only.
  - apply view_all. intros t. unfold a_map_tag, map_token_tag. cbv zeta. rewrite view_or. destruct (ostreq _ _); [reflexivity|]. now rewrite view_clear_only, view_set_tag_only.
  - apply view_all. intros t. unfold a_preserve. cbn [fold_left]. change SUB_LEVEL with (level_of LSub). change NoLevel with (level_of LMain).
    rewrite view_set_preserved, <- view_tag, view_set_preserved, <- view_tag. reflexivity.
  - apply view_all. intros t. unfold a_reset. change (a_set_sub_tag_only None) with (a_set_tag_only None (level_of LSub) None). change NoLevel with (level_of LMain).
    rewrite !view_set_tag_only. reflexivity.
Qed.
(** Whatever is done with attributes is what the other models do with four fields. *)
Theorem C112_refines cs d : map (map view) (fold_left (fun d c => with_attributes c d) cs d) = fold_left (fun d c => with_fields c d) cs (map (map view) d).
Proof. revert d. induction cs as [|c cs IH]; intros d; [reflexivity|]. cbn [fold_left]. now rewrite IH, view_change. Qed.
Theorem C112_new x tg sb w : view (new_token x tg sb w) = mkTok x tg sb None None w.
Proof. apply view_new. Qed.

(** A tag in a scope: the tags without scope stay, but preserved tags without scope are given up, as if the
    tag had been set without scope. *)
Definition given_up (lv lv' : level) (v : ostr) (t x : atok) : Prop :=
  blank sp (a_text t) = false /\ strip_tag_prefix v <> strip_tag_prefix (tag_or_preserved lv (view t)) /\ (lv' = lv \/ lv = LMain) /\
  truthy (strip_tag_prefix (get_preserved_tag lv' (view t))) = true /\
  strip_tag_prefix (get_preserved_tag lv' (view x)) = strip_tag_prefix (get_preserved_tag lv' (view t)).
Definition clr (lv : level) (t x : atok) : atok :=
  let p := strip_tag_prefix (get_preserved_tag lv (view t)) in
  if truthy p && ostreq (strip_tag_prefix (get_preserved_tag lv (view x))) p then a_set_preserved (level_of lv) None x else x.
Lemma clear_same_clr lv j ts t : nth_error ts j = Some t -> a_clear_same (level_of lv) j ts = map (clr lv t) ts.
Proof.
  intros H. unfold a_clear_same, clr. rewrite H. cbv zeta. rewrite <- view_preserved. destruct (truthy _); cbn [andb]; [|now rewrite map_id]. apply map_ext. intros x. now rewrite !view_preserved.
Qed.
Lemma clr_fields lv t x : a_text (clr lv t x) = a_text x /\ a_ws (clr lv t x) = a_ws x /\
  (forall sc l z, level_number l z -> a_get_tag sc l (clr lv t x) = a_get_tag sc l x) /\
  (forall lv', lv' <> lv -> get_preserved_tag lv' (view (clr lv t x)) = get_preserved_tag lv' (view x)) /\
  (truthy (strip_tag_prefix (get_preserved_tag lv (view t))) = true -> strip_tag_prefix (get_preserved_tag lv (view x)) = strip_tag_prefix (get_preserved_tag lv (view t)) ->
     get_preserved_tag lv (view (clr lv t x)) = None) /\
  (~ (truthy (strip_tag_prefix (get_preserved_tag lv (view t))) = true /\ strip_tag_prefix (get_preserved_tag lv (view x)) = strip_tag_prefix (get_preserved_tag lv (view t))) ->
     get_preserved_tag lv (view (clr lv t x)) = get_preserved_tag lv (view x)).
Proof.
  unfold clr. cbv zeta. destruct (truthy (strip_tag_prefix (get_preserved_tag lv (view t))) && _) eqn:E.
  - apply andb_true_iff in E as [E1 E2]. apply ostreq_true in E2. split; [reflexivity|]. split; [reflexivity|]. split; [|split; [|split]].
    + intros sc l z L. unfold a_get_tag, a_set_preserved. apply set_or_remove_other. assert (L' : exists z', level_number (level_of lv) z') by (destruct lv; eexists; constructor). destruct L' as [z' L'].
      intros F. apply (C112_names PRESERVED None (level_of lv) z' TAG sc l z (or_intror eq_refl) (or_introl eq_refl) L' L) in F as [F _]. discriminate.
    + intros lv' Hl. rewrite view_set_preserved. now destruct lv, lv'.
    + intros _ _. rewrite view_set_preserved. now destruct lv.
    + intros H. exfalso. apply H. auto.
  - repeat split; try reflexivity. intros H1 H2. exfalso. rewrite H1, H2 in E. cbn [andb] in E. now apply ostreq_false in E.
Qed.
Lemma view_scoped s lv v t : s <> [] -> view (a_set_tag_only (Some s) (level_of lv) v t) = view t.
Proof.
  intros Hs. assert (L : exists z, level_number (level_of lv) z) by (destruct lv; eexists; constructor). destruct L as [z L].
  assert (G : forall n lv', kind n -> dict_get (scoped_name n None (level_of lv')) (a_attrib (a_set_tag_only (Some s) (level_of lv) v t)) = dict_get (scoped_name n None (level_of lv')) (a_attrib t)).
  { intros n lv' K. assert (L' : exists z, level_number (level_of lv') z) by (destruct lv'; eexists; constructor). destruct L' as [z' L']. apply set_or_remove_other. intros F.
    apply (C112_names TAG (Some s) (level_of lv) z n None (level_of lv') z' (or_introl eq_refl) K L L') in F as (_ & [F|[[F|F] _]] & _); congruence. }
  unfold view, a_get_tag, a_get_preserved. pose proof (G TAG LMain (or_introl eq_refl)) as G1. pose proof (G TAG LSub (or_introl eq_refl)) as G2. pose proof (G PRESERVED LMain (or_intror eq_refl)) as G3. pose proof (G PRESERVED LSub (or_intror eq_refl)) as G4.
  cbn [level_of] in G1, G2, G3, G4. now rewrite G1, G2, G3, G4.
Qed.
Lemma nth_update {X} (f : X -> X) l : forall j k, nth_error (update_nth j f l) k = if Nat.eqb k j then option_map f (nth_error l k) else nth_error l k.
Proof. induction l as [|x l IH]; intros [|j] [|k]; cbn [update_nth nth_error Nat.eqb option_map]; try reflexivity; try apply IH; now destruct (_ =? _). Qed.
Theorem C112_scoped s lv j v ts t : s <> [] -> nth_error ts j = Some t ->
  forall k x, nth_error ts k = Some x -> exists x', nth_error (a_set_tag sp (Some s) (level_of lv) j v ts) k = Some x' /\
    a_text x' = a_text x /\ a_ws x' = a_ws x /\
    (forall lv', get_tag lv' (view x') = get_tag lv' (view x)) /\
    (forall lv', (given_up lv lv' v t x -> get_preserved_tag lv' (view x') = None) /\ (~ given_up lv lv' v t x -> get_preserved_tag lv' (view x') = get_preserved_tag lv' (view x))) /\
    a_get_tag (Some s) (level_of lv) x' = (if Nat.eqb k j then v else a_get_tag (Some s) (level_of lv) x).
Proof.
  intros Hs Ht k x Hx. set (f := a_set_tag_only (Some s) (level_of lv) v). set (x1 := if Nat.eqb k j then f x else x).
  assert (V : forall y, view (f y) = view y) by (intros y; now apply view_scoped).
  assert (N1 : nth_error (update_nth j f ts) k = Some x1) by (rewrite nth_update, Hx; unfold x1; now destruct (Nat.eqb k j)).
  assert (N2 : nth_error (update_nth j f ts) j = Some (f t)) by (rewrite nth_update, Ht, Nat.eqb_refl; reflexivity).
  assert (V1 : view x1 = view x) by (unfold x1; destruct (Nat.eqb k j); auto).
  assert (X1 : a_text x1 = a_text x /\ a_ws x1 = a_ws x) by (unfold x1; destruct (Nat.eqb k j); split; reflexivity).
  assert (L : exists z, level_number (level_of lv) z) by (destruct lv; eexists; constructor). destruct L as [z L].
  assert (G1 : a_get_tag (Some s) (level_of lv) x1 = if Nat.eqb k j then v else a_get_tag (Some s) (level_of lv) x).
  { unfold x1. destruct (Nat.eqb k j); [|reflexivity]. unfold f, a_set_tag_only, a_get_tag. apply set_or_remove_same. }
  unfold a_set_tag. rewrite Ht. fold f. cbv zeta. destruct (blank sp (a_text t)) eqn:Eb; [|destruct (ostreq (strip_tag_prefix v) (strip_tag_prefix (a_tag_or_preserved None (level_of lv) t))) eqn:Eo].
  - exists x1. split; [exact N1|]. split; [apply X1|]. split; [apply X1|]. rewrite V1. split; [reflexivity|]. split; [|exact G1]. intros lv'. split; [intros (Q & _); congruence|reflexivity].
  - apply ostreq_true in Eo. exists x1. split; [exact N1|]. split; [apply X1|]. split; [apply X1|]. rewrite V1. split; [reflexivity|]. split; [|exact G1]. intros lv'. split; [|reflexivity].
    intros (_ & Q & _). rewrite view_or in Q. contradiction.
  - apply ostreq_false in Eo. rewrite <- view_or in Eo.
    rewrite (clear_same_clr lv j _ _ N2). set (y := clr lv (f t) x1).
    assert (N3 : nth_error (map (clr lv (f t)) (update_nth j f ts)) k = Some y) by now rewrite nth_error_map, N1.
    assert (N4 : nth_error (map (clr lv (f t)) (update_nth j f ts)) j = Some (clr lv (f t) (f t))) by now rewrite nth_error_map, N2.
    destruct (clr_fields lv (f t) x1) as (A1 & A2 & A3 & A4 & A5 & A6). fold y in A1, A2, A3, A4, A5, A6. rewrite V, V1 in A5, A6.
    assert (Tg : forall q lv', (forall sc l z, level_number l z -> a_get_tag sc l q = a_get_tag sc l x1) -> get_tag lv' (view q) = get_tag lv' (view x)).
    { intros q lv' H. rewrite <- V1, !view_tag. destruct lv'; [apply (H None NoLevel 0%Z); constructor|apply (H None (IntLevel 2) 2%Z); constructor]. }
    destruct lv.
    + set (t2 := clr LMain (f t) (f t)) in *.
      assert (P2 : get_preserved_tag LSub (view t2) = get_preserved_tag LSub (view t)).
      { destruct (clr_fields LMain (f t) (f t)) as (_ & _ & _ & H & _). unfold t2. rewrite H by discriminate. now rewrite V. }
      destruct (clr_fields LSub t2 y) as (B1 & B2 & B3 & B4 & B5 & B6). rewrite P2 in B5, B6. rewrite (A4 LSub) in B5, B6 by discriminate. rewrite V1 in B5, B6.
      exists (clr LSub t2 y). split; [transitivity (nth_error (map (clr LSub t2) (map (clr LMain (f t)) (update_nth j f ts))) k); [f_equal; exact (clear_same_clr LSub j _ _ N4)|now rewrite nth_error_map, N3]|]. split; [rewrite B1, A1; apply X1|]. split; [rewrite B2, A2; apply X1|].
      split; [intros lv'; apply Tg; intros sc l z' H; rewrite (B3 sc l z' H); now apply A3 with z'|]. split.
      * intros [|].
        -- rewrite (B4 LMain) by discriminate. split; [intros (_ & _ & _ & Q1 & Q2); now apply A5|]. intros Q. apply A6. intros [Q1 Q2]. apply Q. repeat split; auto.
        -- split; [intros (_ & _ & _ & Q1 & Q2); now apply B5|]. intros Q. apply B6. intros [Q1 Q2]. apply Q. repeat split; auto.
      * rewrite <- G1. rewrite (B3 _ _ z L). now apply A3 with z.
    + exists y. cbn [level_of]. split; [exact N3|]. split; [rewrite A1; apply X1|]. split; [rewrite A2; apply X1|]. split; [intros lv'; now apply Tg|]. split.
      * intros [|].
        -- rewrite (A4 LMain) by discriminate. rewrite V1. split; [intros (_ & _ & [Q|Q] & _); discriminate|reflexivity].
        -- split; [intros (_ & _ & _ & Q1 & Q2); now apply A5|]. intros Q. apply A6. intros [Q1 Q2]. apply Q. repeat split; auto.
      * exact (eq_trans (A3 _ _ z L) G1).
Qed.
End Refine.

(* ---------------------------------------------------------------- *)
(** ** C113: merging of documents *)
Section Merging.
Variable merge : stok -> stok -> stok.
(** specification: token by token, as long as there are tokens in both *)
Definition merged_at (ts os ts' : list stok) : Prop :=
  length ts' = length ts /\
  forall k t, nth_error ts k = Some t -> nth_error ts' k = Some (match nth_error os k with Some o => merge t o | None => t end).
Definition same_texts (ts os : list stok) : Prop := forall k t o, nth_error ts k = Some t -> nth_error os k = Some o -> s_text t = s_text o.
Fixpoint zipm (os ts : list stok) {struct ts} : list stok :=
  match ts, os with
  | t :: ts', o :: os' => merge t o :: zipm os' ts'
  | _, _ => ts
  end.
Fixpoint texts_ok (os ts : list stok) {struct ts} : bool :=
  match ts, os with t :: ts', o :: os' => streq (s_text t) (s_text o) && texts_ok os' ts' | _, _ => true end.
Lemma zipm_merged ts : forall os, merged_at ts os (zipm os ts).
Proof.
  induction ts as [|t ts IH]; intros os.
  - split; [now destruct os|]. intros [|k] t H; discriminate.
  - destruct os as [|o os]; cbn [zipm].
    + split; [reflexivity|]. intros k x H. rewrite H. now destruct k.
    + destruct (IH os) as [L H]. split; [cbn [length]; now rewrite L|]. intros [|k] x Hx; cbn [nth_error] in *; [now injection Hx as <-|now apply H].
Qed.
Lemma texts_ok_spec ts : forall os, texts_ok os ts = true <-> same_texts ts os.
Proof.
  induction ts as [|t ts IH]; intros os; [split; [intros _ [|k] ? ? H; discriminate|now destruct os]|]. destruct os as [|o os]; [split; [intros _ k ? ? _ H; now destruct k|reflexivity]|].
  cbn [texts_ok]. rewrite andb_true_iff, streq_true, IH. split.
  - intros [H1 H2] [|k] x y Hx Hy; cbn [nth_error] in *; [congruence|now apply (H2 k)].
  - intros H. split; [now apply (H 0)|]. intros k x y Hx Hy. now apply (H (S k)).
Qed.
Lemma zipm_nil ts : zipm [] ts = ts.
Proof. now destruct ts. Qed.
Lemma ok_nil ts : texts_ok [] ts = true.
Proof. now destruct ts. Qed.
Lemma zipm_app a : forall os b, zipm os (a ++ b) = zipm os a ++ zipm (skipn (length a) os) b.
Proof.
  induction a as [|t a IH]; intros [|o os] b; try reflexivity; [now rewrite skipn_nil, !zipm_nil|]. cbn [app zipm length skipn]. now rewrite IH.
Qed.
Lemma ok_app a : forall os b, texts_ok os (a ++ b) = texts_ok os a && texts_ok (skipn (length a) os) b.
Proof.
  induction a as [|t a IH]; intros [|o os] b; try reflexivity; [now rewrite skipn_nil, !ok_nil|]. cbn [app texts_ok length skipn]. now rewrite IH, andb_assoc.
Qed.
Lemma skip_add {X} (l : list X) : forall a b, skipn (a + b) l = skipn b (skipn a l).
Proof. induction l as [|x l IH]; intros [|a] b; cbn [Nat.add skipn]; rewrite ?skipn_nil; auto. Qed.
Definition does {X} (flat : X -> list stok) (same : X -> X -> Prop) (f : list stok -> X -> res (X * list stok)) : Prop :=
  forall os x, if texts_ok os (flat x) then exists x', f os x = Ok (x', skipn (length (flat x)) os) /\ flat x' = zipm os (flat x) /\ same x x' else f os x = Err AssertionError.
Lemma merge_list_does {X} (flat : X -> list stok) same f : does flat same f -> does (fun xs => concat (map flat xs)) (Forall2 same) (merge_list f).
Proof.
  intros H os xs. revert os. induction xs as [|x xs IH]; intros os; cbn [map concat].
  - rewrite (eq_refl : texts_ok os [] = true). exists []. split; [reflexivity|]. split; [reflexivity|constructor].
  - rewrite ok_app. specialize (H os x). cbn [merge_list]. destruct (texts_ok os (flat x)); cbn [andb]; [|now rewrite H].
    destruct H as (x' & -> & H2 & H3). cbn [bind]. specialize (IH (skipn (length (flat x)) os)). destruct (texts_ok (skipn (length (flat x)) os) (concat (map flat xs))); [|now rewrite IH].
    destruct IH as (xs' & -> & I2 & I3). cbn [bind]. exists (x' :: xs'). split; [|split].
    + f_equal. f_equal. rewrite app_length. symmetry. apply skip_add.
    + cbn [map concat]. now rewrite H2, I2, zipm_app.
    + now constructor.
Qed.
Lemma merge_one_does : does (fun t => [t]) (fun _ _ => True) (merge_one merge).
Proof.
  intros [|o os] t; cbn [texts_ok zipm merge_one]; [now exists t|]. rewrite andb_true_r. destruct (streq (s_text t) (s_text o)); [|reflexivity]. now exists (merge t o).
Qed.
Lemma flat_all d : concat (map (fun xs : list (list stok) => concat (map (fun ys : list stok => concat (map (fun t => [t]) ys)) xs)) d) = all_tokens d.
Proof.
  unfold all_tokens. assert (E1 : forall ys : list stok, concat (map (fun t => [t]) ys) = ys) by (induction ys as [|y ys IH]; [reflexivity|]; cbn; now rewrite IH).
  induction d as [|p d IH]; [reflexivity|]. cbn [map concat]. rewrite IH, concat_app. f_equal. f_equal. rewrite <- (map_id p) at 2. apply map_ext. exact E1.
Qed.
(** pages and lines stay *)
Definition same_layout (d d' : sdoc) : Prop := Forall2 (Forall2 (Forall2 (fun _ _ => True))) d d'.
Lemma merge_does d other : if texts_ok (all_tokens other) (all_tokens d)
  then exists d', merge_with merge d other = Ok d' /\ all_tokens d' = zipm (all_tokens other) (all_tokens d) /\ same_layout d d' else merge_with merge d other = Err AssertionError.
Proof.
  pose proof (merge_list_does _ _ _ (merge_list_does _ _ _ (merge_list_does _ _ _ merge_one_does)) (all_tokens other) d) as H. cbv beta in H. rewrite flat_all in H. unfold merge_with.
  destruct (texts_ok _ _); [|now rewrite H]. destruct H as (d' & -> & H2 & H3). exists d'. split; [reflexivity|]. rewrite flat_all in H2. split; [exact H2|exact H3].
Qed.
(** Merging: token by token as far as both documents go, if there the texts are the same ... *)
Theorem C113_merge d other : same_texts (all_tokens d) (all_tokens other) ->
  exists d', merge_with merge d other = Ok d' /\ same_layout d d' /\ merged_at (all_tokens d) (all_tokens other) (all_tokens d').
Proof.
  intros H. pose proof (merge_does d other) as M. rewrite (proj2 (texts_ok_spec _ _) H) in M. destruct M as (d' & H1 & H2 & H3). exists d'. split; [exact H1|]. split; [exact H3|]. rewrite H2. apply zipm_merged.
Qed.
(** ... and an error otherwise. *)
Theorem C113_error d other : ~ same_texts (all_tokens d) (all_tokens other) <-> merge_with merge d other = Err AssertionError.
Proof.
  rewrite <- texts_ok_spec. pose proof (merge_does d other) as M. destruct (texts_ok _ _).
  - destruct M as (d' & -> & _). split; [intros H; now destruct H|discriminate].
  - split; [intros _; exact M|discriminate].
Qed.
End Merging.
(** a tag of a token of a simple document *)
Lemma s_set_get s l z v p t s' l' z' : level_number l z -> level_number l' z' ->
  (same_scope s s' /\ z = z' -> s_get_tag s' l' (s_set_tag s l v p t) = add_tag_prefix v p) /\
  (~ (same_scope s s' /\ z = z') -> s_get_tag s' l' (s_set_tag s l v p t) = s_get_tag s' l' t).
Proof.
  intros L L'. unfold s_get_tag, s_set_tag. cbn [s_attrib]. pose proof (C112_names TAG s l z TAG s' l' z' (or_introl eq_refl) (or_introl eq_refl) L L') as E. split; intros H.
  - rewrite (proj2 E) by (split; [reflexivity|exact H]). now rewrite dict_get_set_same.
  - rewrite dict_get_set_other; [reflexivity|]. intros F. now apply E in F as (_ & F).
Qed.
(** Merging tags: the tag of the other token in the one scope, if there is one, becomes the tag in the other scope. *)
Theorem C113_tags source target t o s l z : level_number l z ->
  let t' := merge_token_tag source target t o in
  s_text t' = s_text t /\
  (same_scope target s /\ z = 0%Z /\ truthy (s_get_tag source NoLevel o) = true -> s_get_tag s l t' = s_get_tag source NoLevel o) /\
  (~ (same_scope target s /\ z = 0%Z /\ truthy (s_get_tag source NoLevel o) = true) -> s_get_tag s l t' = s_get_tag s l t).
Proof.
  intros L. cbv zeta. unfold merge_token_tag. destruct (truthy (s_get_tag source NoLevel o)) eqn:E.
  - destruct (s_set_get target NoLevel 0 (s_get_tag source NoLevel o) None t s l z number_none L) as [H1 H2]. split; [reflexivity|]. split.
    + intros (A & B & _). rewrite H1; [reflexivity|]. split; [exact A|now symmetry].
    + intros H. apply H2. intros [A B]. apply H. split; [exact A|]. split; [now symmetry|reflexivity].
  - split; [reflexivity|]. split; [intros (_ & _ & H); discriminate|reflexivity].
Qed.
(** False: documents that can be merged have the same tokens. *)
Theorem C113_same_tokens_refuted : exists d other d', merge_with (merge_token_tag None None) d other = Ok d' /\ map s_text (all_tokens d) <> map s_text (all_tokens other).
Proof.
  exists [[[mkSTok (u "a") []]]], [[[mkSTok (u "a") []; mkSTok (u "b") []]]]. eexists. split; [vm_compute; reflexivity|discriminate].
Qed.

(* ---------------------------------------------------------------- *)
(** ** What is false of tags *)
(** False: setting a tag in a scope leaves what is written without scope. *)
Theorem C112_scope_refuted : exists ts j s v t x', nth_error ts j = Some t /\ nth_error (a_set_tag ascii_space (Some s) NoLevel j (Some v) ts) j = Some x' /\ s <> [] /\
  tag_or_preserved LMain (view x') <> tag_or_preserved LMain (view t).
Proof.
  exists [mkATok (u "a") None [(u "preserved_tag", u "b-x")]], 0, (u "s"), (u "b-y"). eexists. eexists. split; [reflexivity|]. split; [vm_compute; reflexivity|]. split; [discriminate|]. vm_compute. discriminate.
Qed.
(** False: level 0 is the same as no level.  The attributes are the same, but preserved sub tags stay. *)
Theorem C112_level_zero_refuted : exists ts j v, a_set_tag ascii_space None (IntLevel 0) j (Some v) ts <> a_set_tag ascii_space None NoLevel j (Some v) ts.
Proof.
  exists [mkATok (u "a") None [(u "preserved_tag", u "b-x"); (u "level2_preserved_tag", u "b-z")]], 0, (u "b-y"). vm_compute. discriminate.
Qed.
(** False of simple documents: only scopes with a tag are listed. *)
Theorem C112_simple_scopes_refuted : exists s t, s_get_tag s NoLevel t = None /\ In (s, None) (s_tag_by_scope t).
Proof. exists (Some (u "s")), (s_set_tag (Some (u "s")) NoLevel None None (mkSTok (u "a") [])). split; [vm_compute; reflexivity|]. vm_compute. now left. Qed.

(* ---------------------------------------------------------------- *)
(** ** Examples *)
Definition ex_token : atok := mkATok (u "Word") (Some (u " ")) [(u "tag", u "b-title"); (u "cv-tag", u "b-body"); (u "level2_tag", u "i-sub"); (u "cv-level12_tag", u "x")].
Example C112_ex_by_scope : NoDup (map fst (a_attrib ex_token)) /\ a_tag_by_scope ex_token = [(None, u "b-title"); (Some (u "cv"), u "b-body")].
Proof. split; [|vm_compute; reflexivity]. vm_compute. repeat constructor; cbn; intros H; repeat destruct H as [H|H]; try discriminate; destruct H. Qed.
Example C112_ex_names : scoped_name (u "tag") (Some (u "cv")) (IntLevel 12) = u "cv-level12_tag" /\ scoped_name (u "preserved_tag") (Some []) (IntLevel (-3)) = u "level-3_preserved_tag" /\
  a_get_tag (Some (u "cv")) (IntLevel 12) ex_token = Some (u "x") /\
  a_get_tag None NoLevel (a_set_tag_only (Some (u "cv")) NoLevel None ex_token) = Some (u "b-title") /\
  a_get_tag (Some (u "cv")) NoLevel (a_set_tag_only (Some (u "cv")) NoLevel None ex_token) = None.
Proof. repeat split; vm_compute; reflexivity. Qed.
Example C112_ex_refines : let d := [[new_token (u "A") (Some (u "b-x")) (Some (u "b-y")) (Some (u " ")); new_token (u " ") (Some (u "i-x")) None (Some []); new_token (u "B") (Some (u "i-x")) None None]] in
  map (map view) (fold_left (fun d c => with_attributes ascii_space c d) [PreserveTags [(u "q", u "x")]; ResetTags; SetTag LMain (0, 2) (Some (u "b-z")); SetTagOnly LSub (0, 0) (Some (u "w"))] d) =
  [[mkTok (u "A") None (Some (u "w")) None (Some (u "b-y")) (Some (u " ")); mkTok (u " ") None None None None (Some []); mkTok (u "B") (Some (u "b-z")) None None None None]].
Proof. vm_compute. reflexivity. Qed.
Example C112_ex_scoped : let ts := [mkATok (u "a") None [(u "preserved_tag", u "b-x")]; mkATok (u "b") None [(u "preserved_tag", u "i-x"); (u "tag", u "k")]] in
  a_set_tag ascii_space (Some (u "s")) NoLevel 1 (Some (u "y")) ts = [mkATok (u "a") None []; mkATok (u "b") None [(u "tag", u "k"); (u "s-tag", u "y")]].
Proof. vm_compute. reflexivity. Qed.
Example C113_ex : let d := [[[mkSTok (u "a") []; mkSTok (u "b") [(u "cv-tag", Some (u "old"))]]; [mkSTok (u "c") []]]] in
  let other := [[[mkSTok (u "a") [(u "tag", Some (u "b-x"))]]]; [[mkSTok (u "b") [(u "tag", None)]]]] in
  same_texts (all_tokens d) (all_tokens other) /\
  merge_with (merge_token_tag None (Some (u "cv"))) d other = Ok [[[mkSTok (u "a") [(u "cv-tag", Some (u "b-x"))]; mkSTok (u "b") [(u "cv-tag", Some (u "old"))]]; [mkSTok (u "c") []]]] /\
  merge_with (merge_token_tag None None) d [[[mkSTok (u "a") []; mkSTok (u "x") []]]] = Err AssertionError.
Proof. cbv zeta. split; [apply texts_ok_spec; vm_compute; reflexivity|]. split; vm_compute; reflexivity. Qed.

Print Assumptions C112_names.
Print Assumptions C112_names_refuted.
Print Assumptions C112_get_set.
Print Assumptions C112_by_scope.
Print Assumptions C112_one_value.
Print Assumptions C112_refines.
Print Assumptions C112_new.
Print Assumptions C112_scoped.
Print Assumptions C112_scope_refuted.
Print Assumptions C112_level_zero_refuted.
Print Assumptions C112_simple_scopes_refuted.
Print Assumptions C113_merge.
Print Assumptions C113_error.
Print Assumptions C113_tags.
Print Assumptions C113_same_tokens_refuted.
