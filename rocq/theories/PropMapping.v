(** C37-C39, C62: mappings and arguments. *)
From Verif Require Import Base ModelFuzzyMatch ModelTarget ModelMapping PropTarget.

(** * Splitting *)
Fixpoint join_with (d : N) (l : list str) : str :=
  match l with [] => [] | [x] => x | x :: l' => x ++ d :: join_with d l' end.
Lemma has_spec c s : has c s = true <-> In c s.
Proof.
  unfold has. rewrite existsb_exists. split.
  - intros (x & Hx & E). apply N.eqb_eq in E. now subst.
  - intros H. exists c. split; [exact H | apply N.eqb_refl].
Qed.
Lemma has_false c s : has c s = false <-> ~ In c s.
Proof. rewrite <- has_spec. destruct (has c s); intuition congruence. Qed.
Lemma split_on_ne d s : split_on d s <> [].
Proof. destruct s as [|c s]; [easy|]. cbn. destruct (N.eqb c d); [easy|]. destruct (split_on d s); easy. Qed.
Lemma split_on_join d s : join_with d (split_on d s) = s /\ Forall (fun x => ~ In d x) (split_on d s).
Proof.
  induction s as [|c s [I1 I2]]; [split; [reflexivity | repeat constructor; easy]|]. cbn [split_on].
  pose proof (split_on_ne d s) as Hne. destruct (N.eqb c d) eqn:E.
  - apply N.eqb_eq in E. subst. split; [|constructor; [easy | exact I2]].
    destruct (split_on d s) as [|h t]; [easy|]. cbn [join_with app] in *. now rewrite I1.
  - apply N.eqb_neq in E. destruct (split_on d s) as [|h t]; [easy|]. split.
    + destruct t; cbn [join_with app] in *; now rewrite I1.
    + inversion I2; subst. constructor; [|assumption]. intros [F|F]; [now apply E | contradiction].
Qed.
Lemma split_on_nosep d s : ~ In d s -> split_on d s = [s].
Proof.
  induction s as [|c s IH]; [reflexivity|]. intros H. cbn [split_on]. destruct (N.eqb c d) eqn:E.
  - apply N.eqb_eq in E. subst. exfalso. apply H. now left.
  - rewrite IH; [reflexivity|]. intros F. apply H. now right.
Qed.
Lemma split_on_app d x s : ~ In d x -> split_on d (x ++ d :: s) = x :: split_on d s.
Proof.
  induction x as [|c x IH]; intros H; cbn [app split_on].
  - now rewrite N.eqb_refl.
  - destruct (N.eqb c d) eqn:E; [apply N.eqb_eq in E; subst; exfalso; apply H; now left|].
    rewrite IH; [reflexivity|]. intros F. apply H. now right.
Qed.
Lemma split_on_joined d l : l <> [] -> Forall (fun x => ~ In d x) l -> split_on d (join_with d l) = l.
Proof.
  intros Hne H. induction H as [|x l Hx H IH]; [easy|]. destruct l as [|y l].
  - cbn. now apply split_on_nosep.
  - change (join_with d (x :: y :: l)) with (x ++ d :: join_with d (y :: l)). rewrite split_on_app by exact Hx. now rewrite IH.
Qed.
Lemma cut_some d s a b : cut d s = Some (a, b) <-> s = a ++ d :: b /\ ~ In d a.
Proof.
  revert a b. induction s as [|c s IH]; intros a b; cbn [cut].
  - split; [discriminate | intros [H _]; destruct a; discriminate].
  - destruct (N.eqb c d) eqn:E.
    + apply N.eqb_eq in E. subst. split.
      * intros [= <- <-]. easy.
      * intros [H1 H2]. destruct a as [|x a]; cbn in H1; [now injection H1 as -> | injection H1 as -> _; exfalso; apply H2; now left].
    + apply N.eqb_neq in E. destruct (cut d s) as [[a' b']|] eqn:F.
      * pose proof (proj1 (IH a' b') eq_refl) as [G1 G2]. subst s. split.
        -- intros [= <- <-]. split; [reflexivity|]. intros [H|H]; [now apply E | contradiction].
        -- intros [H1 H2]. destruct a as [|x a]; cbn in H1; injection H1 as -> H1; [easy|].
           assert (Q : Some (a', b') = Some (a, b)) by (apply IH; split; [exact H1 | intros Q; apply H2; now right]). now injection Q as -> ->.
      * split; [discriminate|]. intros [H1 H2]. destruct a as [|x a]; cbn in H1; injection H1 as -> H1; [easy|].
        assert (Q : None = Some (a, b)) by (apply IH; split; [exact H1 | intros Q; apply H2; now right]). discriminate.
Qed.
Lemma cut_none d s : cut d s = None <-> ~ In d s.
Proof.
  split.
  - intros H F. apply in_split in F as (a & b & E).
    assert (exists a' b', s = a' ++ d :: b' /\ ~ In d a') as (a' & b' & Q).
    { clear H. revert s b E. induction a as [|c a IH]; intros s b E.
      - exists [], b. split; [exact E | easy].
      - destruct (N.eq_dec c d) as [->|Hc]; [exists [], (a ++ d :: b); split; [exact E | easy]|].
        destruct (IH (a ++ d :: b) b eq_refl) as (a' & b' & Q1 & Q2). exists (c :: a'), b'. split; [cbn; now rewrite <- Q1|].
        intros [Q|Q]; [now apply Hc | contradiction]. }
    apply cut_some in Q. congruence.
  - intros H. destruct (cut d s) as [[a b]|] eqn:E; [|reflexivity]. apply cut_some in E as [-> _]. exfalso. apply H. apply in_or_app. right. now left.
Qed.

(** * C37 *)
(** an option belongs to a field if it is the field or the field followed by a dot *)
Definition belongs (key field : str) : Prop := key = field \/ exists rest, key = field ++ ch_dot :: rest.
Definition plain_name (s : str) : Prop := ~ In ch_dot s.
Lemma field_name_spec key f : plain_name f -> (field_name key = f <-> belongs key f).
Proof.
  intros Hf. unfold field_name, belongs. destruct (cut ch_dot key) as [[a b]|] eqn:E.
  - apply cut_some in E as [-> Ha]. split.
    + intros <-. right. now exists b.
    + intros [<-|[r H]]; [exfalso; apply Hf; apply in_or_app; right; now left|].
      assert (Q : cut ch_dot (a ++ ch_dot :: b) = Some (a, b)) by (now apply cut_some). rewrite H in Q.
      apply cut_some in Q as [Q Q2]. assert (Q' : cut ch_dot (f ++ ch_dot :: r) = Some (f, r)) by (now apply cut_some).
      assert (Q'' : cut ch_dot (f ++ ch_dot :: r) = Some (a, b)) by (now apply cut_some). congruence.
  - apply cut_none in E. split; [now left|]. intros [H|[r ->]]; [exact H|]. exfalso. apply E. apply in_or_app. right. now left.
Qed.
Lemma field_name_plain key : plain_name (field_name key).
Proof. unfold field_name, plain_name. destruct (cut ch_dot key) as [[a b]|] eqn:E; [now apply cut_some in E | now apply cut_none]. Qed.

(** a mapping reduced to the options satisfying [P]: same sections, in order *)
Inductive reduced {A} (P : A -> Prop) : list A -> list A -> Prop :=
| Red_nil : reduced P [] []
| Red_keep x l l' : P x -> reduced P l l' -> reduced P (x :: l) (x :: l')
| Red_drop x l l' : ~ P x -> reduced P l l' -> reduced P (x :: l) l'.
Definition reduced_mapping (P : str -> Prop) (m m' : mapping) : Prop :=
  Forall2 (fun s s' => fst s = fst s' /\ reduced (fun kv => P (fst kv)) (snd s) (snd s')) m m'.
Lemma reduced_filter {A} (P : A -> Prop) (f : A -> bool) l : (forall x, f x = true <-> P x) -> reduced P l (filter f l).
Proof.
  intros H. induction l as [|x l IH]; [constructor|]. cbn [filter]. destruct (f x) eqn:E.
  - constructor; [now apply H | exact IH].
  - constructor; [intros F; apply H in F; congruence | exact IH].
Qed.
Lemma reduced_filter_options P f m : (forall k, f k = true <-> P k) -> reduced_mapping P m (filter_options f m).
Proof.
  intros H. unfold reduced_mapping, filter_options. induction m as [|[t o] m IH]; cbn [map]; constructor; [|exact IH].
  cbn [fst snd]. split; [reflexivity|]. apply reduced_filter. intros kv. apply H.
Qed.

Theorem C37_fields m fields : fields <> [] -> Forall plain_name fields ->
  reduced_mapping (fun key => exists f, In f fields /\ belongs key f) m (fst (filtered_mapping_and_fields m fields []))
  /\ snd (filtered_mapping_and_fields m fields []) = fields.
Proof.
  intros Hne Hp. rewrite Forall_forall in Hp. unfold filtered_mapping_and_fields. destruct fields as [|f0 fs]; [easy|]. split; [|reflexivity].
  cbn [fst filter_sub_fields]. apply reduced_filter_options. intros k. rewrite mem_In. split.
  - intros H. exists (field_name k). split; [exact H|]. apply field_name_spec; [apply field_name_plain | reflexivity].
  - intros (f & Hf & B). apply field_name_spec in B; [now rewrite B | now apply Hp].
Qed.
(** without a selection, everything is kept and the fields are the names without a dot *)
Theorem C37_no_selection m :
  fst (filtered_mapping_and_fields m [] []) = m
  /\ (forall f, In f (snd (filtered_mapping_and_fields m [] [])) <-> plain_name f /\ exists t o v, In (t, o) m /\ In (f, v) o).
Proof.
  split; [reflexivity|]. intros f. cbn [filtered_mapping_and_fields snd]. rewrite in_flat_map. split.
  - intros ([t o] & H1 & H2). apply filter_In in H2 as [H2 H3]. apply negb_true_iff, has_false in H3. split; [exact H3|].
    cbn [snd] in H2. apply in_map_iff in H2 as ([f' v] & <- & H2). now exists t, o, v.
  - intros (Hp & t & o & v & H1 & H2). exists (t, o). split; [exact H1|]. apply filter_In. split.
    + cbn [snd]. apply in_map_iff. now exists (f, v).
    + now apply negb_true_iff, has_false.
Qed.
(** sub fields: an option [field.sub.NAME...] belongs to the sub field NAME *)
Definition sub_option (key rest : str) : Prop := exists f, plain_name f /\ key = f ++ u ".sub." ++ rest.
Definition sub_belongs (key sub : str) : Prop := exists rest, sub_option key rest /\ belongs rest sub.
Lemma sub_field_spec key rest : sub_field_of key = Some rest <-> sub_option key rest.
Proof.
  unfold sub_field_of, sub_option. split.
  - destruct (starts_with _ key) eqn:E; [|discriminate]. intros [= <-]. apply starts_with_spec in E as [r E].
    exists (field_name key). split; [apply field_name_plain|]. rewrite E at 1.
    set (p := field_name key) in *. clearbody p. subst key. rewrite skipn_app, skipn_all, Nat.sub_diag. cbn [skipn app].
    rewrite <- !app_assoc. reflexivity.
  - intros (f & Hf & ->). assert (F : field_name (f ++ u ".sub." ++ rest) = f).
    { apply field_name_spec; [exact Hf|]. right. now exists (u "sub." ++ rest). }
    rewrite F. assert (E : f ++ u ".sub." ++ rest = (f ++ u ".sub" ++ u ".") ++ rest) by (rewrite <- !app_assoc; reflexivity).
    rewrite E, starts_with_app. rewrite skipn_app, skipn_all, Nat.sub_diag. reflexivity.
Qed.
(** kept: what is not a sub option, and the sub options that are a selected sub field *)
Theorem C37_sub_fields m sub_fields : sub_fields <> [] ->
  reduced_mapping (fun key => forall rest, sub_option key rest -> rest <> [] -> In rest sub_fields) m
    (fst (filtered_mapping_and_fields m [] sub_fields)).
Proof.
  intros Hne. unfold filtered_mapping_and_fields. cbn [fst]. destruct sub_fields as [|s0 ss]; [easy|]. cbn [filter_sub_fields].
  apply reduced_filter_options. intros k. unfold sub_selected. destruct (sub_field_of k) as [r|] eqn:E.
  - pose proof (proj1 (sub_field_spec _ _) E) as S. destruct r as [|c r].
    + split; [|reflexivity]. intros _ r Hr Hn. apply sub_field_spec in Hr. congruence.
    + rewrite mem_In. split.
      * intros H r' Hr _. apply sub_field_spec in Hr. rewrite E in Hr. injection Hr as <-. exact H.
      * intros H. now apply H.
  - split; [|reflexivity]. intros _ r Hr _. apply sub_field_spec in Hr. congruence.
Qed.
(** so if sub options have no further dots, exactly the selected sub fields are kept *)
Theorem C37_sub_fields_partial m sub_fields : sub_fields <> [] ->
  (forall t o k v rest, In (t, o) m -> In (k, v) o -> sub_option k rest -> rest <> [] /\ plain_name rest) ->
  Forall2 (fun s s' => fst s = fst s'
      /\ reduced (fun kv : str * str => (exists rest, sub_option (fst kv) rest) -> exists sub, In sub sub_fields /\ sub_belongs (fst kv) sub) (snd s) (snd s'))
    m (fst (filtered_mapping_and_fields m [] sub_fields)).
Proof.
  intros Hne H. pose proof (C37_sub_fields m sub_fields Hne) as R. unfold reduced_mapping in R.
  revert H. induction R as [|[t o] [t' o'] m m' [R1 R2] R IH]; intros H; [constructor|]. constructor.
  - cbn [fst snd] in *. split; [exact R1|]. specialize (H t o). assert (H' : forall k v rest, In (k, v) o -> sub_option k rest -> rest <> [] /\ plain_name rest) by (intros k v rest Hi Hs; apply (H k v rest (or_introl eq_refl) Hi Hs)).
    clear - R2 H'. induction R2 as [|[k v] l l' P R2 IH|[k v] l l' P R2 IH]; [constructor| |].
    + apply Red_keep; [|apply IH; intros k0 v0 r0 Hi Hs; apply (H' k0 v0 r0 (or_intror Hi) Hs)]. cbn [fst] in *. intros [rest Hr].
      destruct (H' k v rest (or_introl eq_refl) Hr) as [Hn _]. exists rest. split; [apply P; assumption|]. exists rest. split; [exact Hr | now left].
    + apply Red_drop; [|apply IH; intros k0 v0 r0 Hi Hs; apply (H' k0 v0 r0 (or_intror Hi) Hs)]. cbn [fst] in *. intros F. apply P. intros rest Hr Hn.
      destruct (H' k v rest (or_introl eq_refl) Hr) as [_ Hpl]. destruct F as (sub & Hs & rest' & Hr' & B); [now exists rest|].
      apply sub_field_spec in Hr, Hr'. rewrite Hr in Hr'. injection Hr' as <-. destruct B as [->|[r ->]]; [exact Hs|].
      exfalso. apply Hpl. apply in_or_app. right. now left.
  - apply IH. intros t0 o0 k0 v0 r0 Hm Hi Hs. apply (H t0 o0 k0 v0 r0 (or_intror Hm) Hi Hs).
Qed.
(** an option of a selected sub field is dropped *)
Theorem C37_sub_option_refuted : exists m sub_fields key v,
  In (u "article", [(key, v)]) m /\ (exists sub, In sub sub_fields /\ sub_belongs key sub)
  /\ fst (filtered_mapping_and_fields m [] sub_fields) = [(u "article", [])].
Proof.
  exists [(u "article", [(u "author.sub.surname.extract-regex", u "x")])], [u "surname"], (u "author.sub.surname.extract-regex"), (u "x").
  split; [now left|]. split; [|reflexivity]. exists (u "surname"). split; [now left|]. exists (u "surname.extract-regex"). split.
  - exists (u "author"). split; [|reflexivity]. unfold plain_name. cbn. intuition discriminate.
  - right. exists (u "extract-regex"). reflexivity.
Qed.
Definition map_example : mapping :=
  [(u "article", [(u "title", u "a"); (u "title.bonding", u "b"); (u "titles", u "c"); (u "author", u "d"); (u "author.sub.surname", u "e"); (u "author.sub.given", u "f")])].
Example C37_example :
  Forall plain_name [u "title"]
  /\ filtered_mapping_and_fields map_example [u "title"] [] = ([(u "article", [(u "title", u "a"); (u "title.bonding", u "b")])], [u "title"])
  /\ filtered_mapping_and_fields map_example [u "author"] [u "given"] = ([(u "article", [(u "author", u "d"); (u "author.sub.given", u "f")])], [u "author"]).
Proof. split; [constructor; [unfold plain_name; cbn; intuition discriminate | constructor] | split; reflexivity]. Qed.

(** * C62: overrides and sub mappings *)
Lemma dict_update_get {A} (e : list (str * A)) : forall d k,
  dict_get k (dict_update d e) = match dict_get k (rev e) with Some v => Some v | None => dict_get k d end.
Proof.
  assert (G : forall (a b : list (str * A)) k, dict_get k (a ++ b) = match dict_get k a with Some v => Some v | None => dict_get k b end).
  { induction a as [|[k' v'] a IH]; intros b k; [reflexivity|]. cbn [app dict_get]. destruct (streq k k'); [reflexivity | apply IH]. }
  induction e as [|[k' v'] e IH]; intros d k; [reflexivity|]. change (dict_update d ((k', v') :: e)) with (dict_update (dict_set k' v' d) e).
  rewrite IH. cbn [rev]. rewrite G. cbn [fst snd dict_get]. destruct (dict_get k (rev e)); [reflexivity|].
  destruct (streq k k') eqn:E.
  - apply streq_true in E. subst. now rewrite dict_get_set_same.
  - apply streq_false in E. rewrite dict_get_set_other by congruence. reflexivity.
Qed.
Lemma dict_get_nodup {A} (l : list (str * A)) k v : NoDup (map fst l) -> (dict_get k l = Some v <-> In (k, v) l).
Proof.
  induction l as [|[k' v'] l IH]; intros H; [easy|]. cbn [map fst dict_get] in *. inversion H as [|? ? H1 H2]; subst. destruct (streq k k') eqn:E.
  - apply streq_true in E. subst. split; [intros [= <-]; now left|]. intros [[= <-]|F]; [reflexivity|]. exfalso. apply H1. now apply (in_map fst) in F.
  - apply streq_false in E. rewrite (IH H2). split; [now right|]. intros [[= -> ->]|F]; [congruence | exact F].
Qed.
Lemma NoDup_rev_fst {A} (l : list (str * A)) : NoDup (map fst l) -> NoDup (map fst (rev l)).
Proof. intros H. rewrite map_rev. now apply NoDup_rev. Qed.
Lemma dict_set_keys {A} k (v : A) : forall d, NoDup (map fst d) -> NoDup (map fst (dict_set k v d)).
Proof.
  assert (G : forall d k', In k' (map fst (dict_set k v d)) -> k' = k \/ In k' (map fst d)).
  { induction d as [|[k1 v1] d IH]; intros k'; cbn [dict_set map fst].
    - intros [<-|[]]. now left.
    - destruct (streq k k1) eqn:E; cbn [map fst]; [intros H; now right|]. intros [<-|H]; [right; now left|].
      destruct (IH k' H); auto. right. now right. }
  induction d as [|[k1 v1] d IH]; intros H; cbn [dict_set map fst].
  - repeat constructor. easy.
  - inversion H as [|? ? H1 H2]; subst. destruct (streq k k1) eqn:E; cbn [map fst]; [exact H|]. constructor; [|now apply IH].
    intros F. apply G in F as [F|F]; [apply streq_false in E; congruence | contradiction].
Qed.
(** the overridden options have the new value, all others are unchanged, in every section *)
Theorem C62_overrides m overrides : NoDup (map fst overrides) ->
  Forall2 (fun s s' => fst s = fst s' /\
    (NoDup (map fst (snd s)) -> NoDup (map fst (snd s')) /\
      forall k v, In (k, v) (snd s') <-> In (k, v) overrides \/ (~ In k (map fst overrides) /\ In (k, v) (snd s))))
    m (mapping_with_overrides m overrides).
Proof.
  intros Hnd.
  assert (U : forall o, NoDup (map fst o) -> NoDup (map fst (dict_update o overrides))).
  { clear. induction overrides as [|kv e IH]; intros o H; [exact H|]. change (dict_update o (kv :: e)) with (dict_update (dict_set (fst kv) (snd kv) o) e). apply IH. now apply dict_set_keys. }
  assert (G : Forall2 (fun s s' : str * options => fst s = fst s' /\
    (NoDup (map fst (snd s)) -> NoDup (map fst (snd s')) /\
      forall k v, In (k, v) (snd s') <-> In (k, v) overrides \/ (~ In k (map fst overrides) /\ In (k, v) (snd s))))
    m (map (fun sec => (fst sec, dict_update (snd sec) overrides)) m)).
  { induction m as [|[t o] m IH]; cbn [map]; constructor; [|exact IH]. cbn [fst snd]. split; [reflexivity|]. intros Ho. split; [now apply U|].
    intros k v. rewrite <- (dict_get_nodup _ k v (U o Ho)), dict_update_get.
    destruct (dict_get k (rev overrides)) as [v'|] eqn:E.
    - apply dict_get_nodup in E; [|now apply NoDup_rev_fst]. apply in_rev in E. split.
      + intros [= <-]. now left.
      + intros [F|[F _]]; [|exfalso; apply F; now apply (in_map fst) in E].
        f_equal. assert (Q : Some v' = Some v); [|congruence]. apply dict_get_nodup in E, F; try assumption. congruence.
    - rewrite (dict_get_nodup o k v Ho). assert (N : ~ In k (map fst overrides)).
      { intros F. apply in_map_iff in F as ([k' v'] & <- & F). apply in_rev in F. apply (dict_get_nodup (rev overrides)) in F; [|now apply NoDup_rev_fst].
        cbn [fst] in E. congruence. }
      split; [now right|]. intros [F|[_ F]]; [|exact F]. exfalso. apply N. now apply (in_map fst) in F. }
  unfold mapping_with_overrides. destruct overrides as [|kv e]; [|exact G].
  clear. induction m as [|s m IH]; constructor; [|exact IH]. split; [reflexivity|]. intros H. split; [exact H|]. intros k v. cbn. intuition.
Qed.
(** the sub fields of a field *)
Theorem C62_sub_mapping m tag k v : In (k, v) (sub_mapping m tag) <-> plain_name k /\ In (tag ++ u ".sub." ++ k, v) m.
Proof.
  unfold sub_mapping, prefixed_values. rewrite filter_In, in_flat_map. cbn [fst]. rewrite negb_true_iff, has_false. fold (plain_name k).
  assert (A : forall k, tag ++ u ".sub." ++ k = (tag ++ u ".sub" ++ u ".") ++ k) by (intros; rewrite <- !app_assoc; reflexivity).
  split.
  - intros [([k' v'] & H1 & H2) Hp]. split; [exact Hp|]. cbn [fst snd] in H2. destruct (starts_with _ k') eqn:E; [|easy].
    apply starts_with_spec in E as [r ->]. destruct H2 as [H2|[]]. rewrite skipn_app, skipn_all, Nat.sub_diag in H2. cbn [skipn app] in H2.
    injection H2 as <- <-. rewrite A. exact H1.
  - intros [Hp H]. split; [|exact Hp]. exists (tag ++ u ".sub." ++ k, v). split; [exact H|]. cbn [fst snd]. rewrite A, starts_with_app.
    left. rewrite skipn_app, skipn_all, Nat.sub_diag. reflexivity.
Qed.
Example C62_example :
  mapping_with_overrides [(u "article", [(u "a", u "1"); (u "b", u "2")])] [(u "b", u "3"); (u "c", u "4")]
    = [(u "article", [(u "a", u "1"); (u "b", u "3"); (u "c", u "4")])]
  /\ sub_mapping (snd (hd (u "", []) map_example)) (u "author") = [(u "surname", u "e"); (u "given", u "f")].
Proof. split; reflexivity. Qed.

(** * C38 *)
(** the statements made by the items: a sign holds until the next sign *)
Inductive statement := Add (x : str) | Remove (x : str).
Fixpoint statements (adding : bool) (items : list str) : list statement :=
  match items with
  | [] => []
  | [] :: items' => statements adding items'
  | (c :: rest) :: items' =>
      let adding' := if N.eqb c ch_plus then true else if N.eqb c ch_minus then false else adding in
      let value := if N.eqb c ch_plus || N.eqb c ch_minus then rest else c :: rest in
      (if adding' then Add value else Remove value) :: statements adding' items'
  end.
Definition adds (x : str) (l : list statement) : nat := length (filter (fun s => match s with Add y => streq x y | Remove _ => false end) l).
Definition removes (x : str) (l : list statement) : nat := length (filter (fun s => match s with Remove y => streq x y | Add _ => false end) l).
Definition count (x : str) (l : list str) : nat := length (filter (streq x) l).
(** nothing is removed that is not there *)
Definition feasible (default : list str) (l : list statement) : Prop :=
  forall p x q, l = p ++ Remove x :: q -> (removes x p < count x default + adds x p)%nat.

Definition run_statement (l : list str) (s : statement) : res (list str) :=
  match s with Add x => Ok (l ++ [x]) | Remove x => list_remove x l end.
Lemma pm_run items : forall mode l, (match mode with Some c => plus_or_minus c | None => false end) = true ->
  (do st <- foldM pm_step (mode, l) items ;; Ok (snd st))
  = foldM run_statement l (statements (match mode with Some c => N.eqb c ch_plus | None => false end) items).
Proof.
  induction items as [|[|c rest] items IH]; intros mode l Hm; [reflexivity|exact (IH mode l Hm)|].
  cbn [foldM pm_step statements]. destruct mode as [m0|]; [|discriminate]. unfold plus_or_minus in *.
  destruct (N.eqb c ch_plus) eqn:E1; [|destruct (N.eqb c ch_minus) eqn:E2].
  - cbn [orb]. apply N.eqb_eq in E1. subst c. cbn [N.eqb ch_plus ch_minus Pos.eqb bind run_statement]. exact (IH (Some ch_plus) (l ++ [rest]) eq_refl).
  - cbn [orb]. apply N.eqb_eq in E2. subst c. cbn [N.eqb ch_plus ch_minus Pos.eqb bind run_statement].
    destruct (list_remove rest l) as [l'|e]; [|reflexivity]. cbn [bind]. exact (IH (Some ch_minus) l' eq_refl).
  - cbn [orb]. destruct (N.eqb m0 ch_plus) eqn:M.
    + apply N.eqb_eq in M. subst m0. cbn [N.eqb ch_plus ch_minus Pos.eqb bind run_statement]. exact (IH (Some ch_plus) _ eq_refl).
    + cbn [orb] in Hm. rewrite Hm. apply N.eqb_eq in Hm. subst m0. cbn [bind run_statement].
      destruct (list_remove (c :: rest) l) as [l'|e]; [|reflexivity]. cbn [bind]. exact (IH (Some ch_minus) l' eq_refl).
Qed.
Lemma foldM_snoc {A B} (f : A -> B -> res A) a l x : foldM f a (l ++ [x]) = do b <- foldM f a l ;; f b x.
Proof.
  revert a; induction l as [|y l IH]; intros a; cbn [foldM app bind]; [now destruct (f a x)|]. destruct (f a y); [apply IH | reflexivity].
Qed.
Lemma count_app x a b : count x (a ++ b) = (count x a + count x b)%nat.
Proof. unfold count. now rewrite filter_app, app_length. Qed.
Lemma count_In x l : (0 < count x l)%nat <-> In x l.
Proof.
  unfold count. induction l as [|y l IH]; [cbn; split; [lia | easy]|]. cbn [filter]. destruct (streq x y) eqn:E.
  - apply streq_true in E. subst. split; [now left | cbn; lia].
  - apply streq_false in E. rewrite IH. split; [now right|]. intros [->|H]; [congruence | exact H].
Qed.
Lemma list_remove_spec x l : (In x l -> exists r, list_remove x l = Ok r /\ forall y, count y r = (count y l - if streq y x then 1 else 0)%nat)
  /\ (~ In x l -> list_remove x l = Err ValueError).
Proof.
  induction l as [|z l [I1 I2]]; [split; easy|]. cbn [list_remove]. destruct (streq z x) eqn:E.
  - apply streq_true in E. subst z. split; [|intros H; exfalso; apply H; now left]. intros _. exists l. split; [reflexivity|].
    intros y. unfold count. cbn [filter]. destruct (streq y x) eqn:F; cbn [length]; lia.
  - apply streq_false in E. split.
    + intros [->|H]; [easy|]. destruct (I1 H) as (r & -> & R). cbn [bind]. eexists. split; [reflexivity|].
      intros y. unfold count in *. cbn [filter]. destruct (streq y z) eqn:F; cbn [length]; rewrite R; [|reflexivity].
      apply streq_true in F. subst y. replace (streq z x) with false by (symmetry; now apply streq_false). lia.
    + intros H. rewrite I2; [reflexivity|]. intros F. apply H. now right.
Qed.
Lemma adds_app x a b : adds x (a ++ b) = (adds x a + adds x b)%nat.
Proof. unfold adds. now rewrite filter_app, app_length. Qed.
Lemma removes_app x a b : removes x (a ++ b) = (removes x a + removes x b)%nat.
Proof. unfold removes. now rewrite filter_app, app_length. Qed.
Lemma run_count default l :
  (feasible default l -> exists r, foldM run_statement default l = Ok r /\ forall x, (count x r + removes x l = count x default + adds x l)%nat)
  /\ (~ feasible default l -> foldM run_statement default l = Err ValueError).
Proof.
  induction l as [|s l [I1 I2]] using rev_ind.
  - split; [|intros H; exfalso; apply H; intros [|]; discriminate]. intros _. exists default. split; [reflexivity|]. intros x. cbn. lia.
  - assert (D : feasible default l \/ ~ feasible default l).
    { destruct (foldM run_statement default l) as [r|e] eqn:E.
      - left. intros p x q ->. destruct (Nat.lt_decidable (removes x p) (count x default + adds x p)) as [L|L]; [exact L|].
        assert (NF : ~ feasible default (p ++ Remove x :: q)) by (intros F; apply L, (F p x q eq_refl)). exfalso. pose proof (I2 NF) as Q. discriminate Q.
      - right. intros F. destruct (I1 F) as (r & R & _). discriminate R. }
    rewrite foldM_snoc. destruct D as [D|D].
    + destruct (I1 D) as (r & -> & C). cbn [bind]. destruct s as [x|x]; cbn [run_statement].
      * split; [intros _|].
        -- eexists. split; [reflexivity|]. intros y. specialize (C y). rewrite count_app, adds_app, removes_app. unfold count at 2, adds at 2, removes at 2. cbn [filter].
           destruct (streq y x); cbn [length]; lia.
        -- intros F. exfalso. apply F. intros p y q E. destruct q as [|z q] using rev_ind; [apply app_inj_tail in E as [_ E]; discriminate|]. clear IHq.
           rewrite app_comm_cons, app_assoc in E. apply app_inj_tail in E as [E _]. apply (D p y q E).
      * assert (F1 : feasible default (l ++ [Remove x]) <-> In x r).
        { rewrite <- count_In. specialize (C x). split.
          - intros F. specialize (F l x [] eq_refl). lia.
          - intros H p y q E. destruct q as [|z q] using rev_ind.
            + apply app_inj_tail in E as [-> E]. injection E as <-. lia.
            + rewrite app_comm_cons, app_assoc in E. apply app_inj_tail in E as [E _]. apply (D p y q E). }
        rewrite F1. destruct (list_remove_spec x r) as [R1 R2]. split; [|exact R2]. intros Hx.
        destruct (R1 Hx) as (r' & -> & R). eexists. split; [reflexivity|]. intros y. specialize (C y). specialize (R y).
        apply count_In in Hx. rewrite adds_app, removes_app. unfold adds at 2, removes at 2. cbn [filter].
        destruct (streq y x) eqn:E; cbn [length]; [apply streq_true in E; subst; lia | lia].
    + rewrite (I2 D). cbn [bind]. split; [|reflexivity]. intros F. exfalso. apply D. intros p x q E. apply (F p x (q ++ [s])). rewrite E, <- app_assoc. reflexivity.
Qed.

(** the items of a list: the parts between the commas without outer white space *)
Definition trimmed (sp : N -> bool) (x y : str) : Prop :=
  exists w w', x = w ++ y ++ w' /\ forallb sp w = true /\ forallb sp w' = true
  /\ (forall c z, y = c :: z -> sp c = false) /\ (forall c z, y = z ++ [c] -> sp c = false).
Lemma trimmed_strip sp x : trimmed sp x (strip sp x).
Proof. destruct (strip_spec sp x) as (w & w' & E & W & W' & N). exists w, w'. repeat split; auto; intros c z Q; apply (N c z); auto. Qed.
Lemma trimmed_pre sp w x y : forallb sp w = true -> trimmed sp x y -> trimmed sp (w ++ x) y.
Proof.
  intros Hw (a & b & -> & A & B & S). exists (w ++ a), b. split; [now rewrite <- app_assoc|]. split; [now rewrite forallb_app, Hw|auto].
Qed.
Lemma trimmed_post sp w x y : forallb sp w = true -> trimmed sp x y -> trimmed sp (x ++ w) y.
Proof.
  intros Hw (a & b & -> & A & B & S). exists a, (b ++ w). split; [now rewrite <- !app_assoc|]. split; [exact A|]. split; [now rewrite forallb_app, Hw, B|auto].
Qed.
Lemma blank_no_comma sp w : sp ch_comma = false -> forallb sp w = true -> ~ In ch_comma w.
Proof. intros H Hw Q. rewrite forallb_forall in Hw. specialize (Hw _ Q). congruence. Qed.
Lemma strip_nil sp s : strip sp s = [] <-> forallb sp s = true.
Proof.
  destruct (strip_spec sp s) as (w & w' & E & W & W' & N). split.
  - intros Q. rewrite Q in E. cbn [app] in E. now rewrite E, forallb_app, W, W'.
  - intros Q. destruct (strip sp s) as [|c z] eqn:F; [reflexivity|]. specialize (N c z (or_introl eq_refl)).
    rewrite E, !forallb_app in Q. cbn in Q. rewrite N in Q. rewrite !andb_false_r in Q. discriminate.
Qed.
Theorem C38_items sp s : sp ch_comma = false ->
  (forallb sp s = true /\ comma_list sp s = []) \/
  (forallb sp s = false /\ exists parts, s = join_with ch_comma parts /\ Forall (fun x => ~ In ch_comma x) parts
     /\ Forall2 (trimmed sp) parts (comma_list sp s)).
Proof.
  intros Hc. destruct (forallb sp s) eqn:B; [left; split; [reflexivity|]|right; split; [reflexivity|]].
  { unfold comma_list. now rewrite (proj2 (strip_nil sp s) B). }
  assert (Hn : strip sp s <> []) by (rewrite strip_nil; congruence).
  destruct (strip_spec sp s) as (w & w' & E & W & W' & _).
  assert (EL : comma_list sp s = map (strip sp) (split_on ch_comma (strip sp s))) by (unfold comma_list; destruct (strip sp s); [easy|reflexivity]).
  rewrite EL. clear EL. destruct (split_on_join ch_comma (strip sp s)) as [J F]. rewrite <- J in E. clear J Hn.
  assert (T : Forall2 (trimmed sp) (split_on ch_comma (strip sp s)) (map (strip sp) (split_on ch_comma (strip sp s)))).
  { clear. induction (split_on ch_comma (strip sp s)); constructor; auto using trimmed_strip. }
  pose proof (split_on_ne ch_comma (strip sp s)) as NE.
  revert E F T NE. generalize (map (strip sp) (split_on ch_comma (strip sp s))). generalize (split_on ch_comma (strip sp s)). intros parts items E F T NE.
  assert (P : exists parts1, join_with ch_comma parts1 = join_with ch_comma parts ++ w' /\ Forall (fun x => ~ In ch_comma x) parts1 /\ Forall2 (trimmed sp) parts1 items /\ parts1 <> []).
  { clear E. revert F NE. induction T as [|x y parts items Hxy T IH]; intros F NE; [easy|]. inversion F as [|? ? F1 F2]; subst.
    destruct parts as [|x2 parts].
    - inversion T; subst. exists [x ++ w']. repeat split; [|repeat constructor; now apply trimmed_post|discriminate].
      constructor; [|constructor]. intros Q. apply in_app_iff in Q as [Q|Q]; [exact (F1 Q)|exact (blank_no_comma sp w' Hc W' Q)].
    - destruct (IH F2 ltac:(discriminate)) as (p1 & P1 & P2 & P3 & P4). exists (x :: p1). repeat split.
      + destruct p1 as [|z p1]; [easy|]. change (join_with ch_comma (x :: z :: p1)) with (x ++ ch_comma :: join_with ch_comma (z :: p1)). rewrite P1.
        change (join_with ch_comma (x :: x2 :: parts)) with (x ++ ch_comma :: join_with ch_comma (x2 :: parts)). now rewrite <- app_assoc.
      + now constructor.
      + now constructor.
      + discriminate. }
  destruct P as (p1 & P1 & P2 & P3 & P4). destruct p1 as [|x p1]; [easy|]. inversion P2; inversion P3; subst. exists ((w ++ x) :: p1). repeat split.
  - rewrite <- P1. destruct p1; [reflexivity|]. cbn [join_with]. now rewrite <- app_assoc.
  - constructor; [|assumption]. intros Q. apply in_app_iff in Q as [Q|Q]; [exact (blank_no_comma sp w Hc W Q)|contradiction].
  - constructor; [now apply trimmed_pre|assumption].
Qed.
Example C38_items_ex : comma_list ascii_space (u " a, b c ,,d ") = [u "a"; u "b c"; []; u "d"] /\ comma_list ascii_space (u "  ") = [].
Proof. split; reflexivity. Qed.

Section PlusMinus.
Variable sp : N -> bool.
(** the list given by the user starts with a sign *)
Definition signed (items : list str) : Prop := exists c rest more, items = (c :: rest) :: more /\ (c = ch_plus \/ c = ch_minus).
Theorem C38_plain s default : ~ signed (comma_list sp s) -> plus_minus_list sp s default = Ok (comma_list sp s).
Proof.
  intros H. unfold plus_minus_list. destruct (comma_list sp s) as [|[|c rest] more]; try reflexivity.
  destruct (plus_or_minus c) eqn:E; [|reflexivity]. exfalso. apply H. exists c, rest, more. split; [reflexivity|].
  unfold plus_or_minus in E. apply orb_true_iff in E. now rewrite !N.eqb_eq in E.
Qed.
Lemma signed_run s default : signed (comma_list sp s) ->
  plus_minus_list sp s default = foldM run_statement default (statements true (comma_list sp s)).
Proof.
  intros (c & rest & more & E & Hc). unfold plus_minus_list. rewrite E.
  replace (plus_or_minus c) with true by (destruct Hc as [-> | ->]; reflexivity).
  cbn [foldM pm_step statements]. unfold plus_or_minus. destruct Hc as [-> | ->]; cbn [N.eqb ch_plus ch_minus Pos.eqb orb bind run_statement].
  - exact (pm_run more (Some ch_plus) (default ++ [rest]) eq_refl).
  - destruct (list_remove rest default) as [l'|e]; [|reflexivity]. cbn [bind]. exact (pm_run more (Some ch_minus) l' eq_refl).
Qed.
(** how often an item is in the result; ValueError exactly if something is removed that is
    not there at that time *)
Theorem C38_counts s default : signed (comma_list sp s) ->
  let l := statements true (comma_list sp s) in
  (feasible default l -> exists r, plus_minus_list sp s default = Ok r /\ forall x, (count x r + removes x l = count x default + adds x l)%nat)
  /\ (~ feasible default l -> plus_minus_list sp s default = Err ValueError).
Proof. intros H l. rewrite signed_run by exact H. apply run_count. Qed.
(** the last statement about an item decides, if no item is mentioned twice and the
    defaults are free of duplicates *)
Definition subject (s : statement) : str := match s with Add x | Remove x => x end.
Theorem C38_last_statement_partial s default r : signed (comma_list sp s) ->
  NoDup default -> NoDup (map subject (statements true (comma_list sp s))) ->
  plus_minus_list sp s default = Ok r ->
  forall x, In x r <-> In (Add x) (statements true (comma_list sp s))
                       \/ In x default /\ ~ In (Remove x) (statements true (comma_list sp s)).
Proof.
  intros Hs Hd Hn E x. destruct (C38_counts s default Hs) as [C1 C2]. set (l := statements true (comma_list sp s)) in *. clearbody l.
  assert (F : feasible default l) by (destruct (run_count default l) as [_ R]; intros p y q Q; destruct (Nat.lt_decidable (removes y p) (count y default + adds y p)) as [L|L]; [exact L|];
    exfalso; assert (NF : ~ feasible default l) by (intros F; apply L, (F p y q Q)); rewrite (C2 NF) in E; discriminate).
  destruct (C1 F) as (r' & E' & C). rewrite E in E'. injection E' as <-. specialize (C x).
  assert (D : (count x default <= 1)%nat).
  { clear - Hd. unfold count. induction Hd as [|y l Hy Hd IH]; [cbn; lia|]. cbn [filter]. destruct (streq x y) eqn:E; [|exact IH].
    apply streq_true in E. subst y. apply (fun H => proj1 (Nat.le_0_r _) (proj2 (Nat.nlt_ge _ _) H)) in Hy || idtac.
    pose proof (proj1 (count_In x l)) as Q. unfold count in Q. cbn [length]. destruct (length (filter (streq x) l)); [lia|]. exfalso. apply Hy, Q. lia. }
  assert (A : (adds x l + removes x l <= 1)%nat /\ ((0 < adds x l)%nat <-> In (Add x) l) /\ ((0 < removes x l)%nat <-> In (Remove x) l)).
  { clear - Hn. assert (P : ((0 < adds x l)%nat <-> In (Add x) l) /\ ((0 < removes x l)%nat <-> In (Remove x) l)).
    { unfold adds, removes. split; (split; [intros H | intros H]).
      - destruct (filter _ l) as [|s0 k] eqn:E; [cbn in H; lia|]. assert (G : In s0 (s0 :: k)) by now left. rewrite <- E in G. apply filter_In in G as [G1 G2].
        destruct s0; [|easy]. apply streq_true in G2. now subst.
      - match goal with |- (0 < length ?f)%nat => assert (G : In (Add x) f) by (apply filter_In; split; [exact H | apply streq_refl]); destruct f; [easy | cbn; lia] end.
      - destruct (filter _ l) as [|s0 k] eqn:E; [cbn in H; lia|]. assert (G : In s0 (s0 :: k)) by now left. rewrite <- E in G. apply filter_In in G as [G1 G2].
        destruct s0; [easy|]. apply streq_true in G2. now subst.
      - match goal with |- (0 < length ?f)%nat => assert (G : In (Remove x) f) by (apply filter_In; split; [exact H | apply streq_refl]); destruct f; [easy | cbn; lia] end. }
    split; [|exact P]. clear P. induction l as [|s0 l IH]; [cbn; lia|]. cbn [map] in Hn. inversion Hn as [|? ? H1 H2]; subst. specialize (IH H2).
    assert (Z : x = subject s0 -> adds x l = 0%nat /\ removes x l = 0%nat).
    { intros ->. unfold adds, removes. split; (destruct (filter _ l) as [|t k] eqn:E; [reflexivity|]); exfalso; apply H1;
        (assert (G : In t (t :: k)) by now left); rewrite <- E in G; apply filter_In in G as [G1 G2]; destruct t; try easy; apply streq_true in G2; rewrite G2;
        now apply (in_map subject) in G1. }
    unfold adds, removes in *. cbn [filter]. destruct s0 as [y|y]; destruct (streq x y) eqn:E; try exact IH; apply streq_true in E; destruct (Z E) as [Z1 Z2]; cbn [length]; lia. }
  destruct A as (A1 & A2 & A3). rewrite <- (count_In x r), <- (count_In x default), <- A2, <- A3. lia.
Qed.
End PlusMinus.
(** in general the last statement does not decide *)
Theorem C38_last_statement_refuted : exists s default r x,
  plus_minus_list ascii_space s default = Ok r /\ statements true (comma_list ascii_space s) = [Add x; Remove x] /\ In x r.
Proof. exists (u "+a,-a"), [u "a"], [u "a"], (u "a"). split; [reflexivity|]. split; [reflexivity | now left]. Qed.
Example C38_example :
  signed (comma_list ascii_space (u "+c, d, -a")) /\ NoDup [u "a"; u "b"]
  /\ statements true (comma_list ascii_space (u "+c, d, -a")) = [Add (u "c"); Add (u "d"); Remove (u "a")]
  /\ plus_minus_list ascii_space (u "+c, d, -a") [u "a"; u "b"] = Ok [u "b"; u "c"; u "d"]
  /\ plus_minus_list ascii_space (u "-c") [u "a"] = Err ValueError
  /\ plus_minus_list ascii_space (u "x, y") [u "a"] = Ok [u "x"; u "y"].
Proof.
  split; [exists ch_plus, (u "c"), [u "d"; u "-a"]; split; [reflexivity | now left]|].
  split; [repeat constructor; cbn; intuition discriminate|]. repeat split; reflexivity.
Qed.

(** * C39 *)
Section KeyValue.
Variable sp : N -> bool.
Variable lb : N -> bool.
(** a fragment [key=value], the key up to the first equals sign *)
Definition key_value (fragment k v : str) : Prop :=
  exists k0 v0, fragment = k0 ++ ch_eq :: v0 /\ ~ In ch_eq k0 /\ strip sp k0 = k /\ strip sp v0 = v.
Lemma key_value_parse f k v : parse_key_value sp f = Ok (k, v) <-> key_value f k v.
Proof.
  unfold parse_key_value, key_value. destruct (cut ch_eq f) as [[a b]|] eqn:E.
  - split.
    + intros [= <- <-]. exists a, b. apply cut_some in E as [E1 E2]. auto.
    + intros (k0 & v0 & H1 & H2 & <- & <-). assert (Q : cut ch_eq f = Some (k0, v0)) by (now apply cut_some). rewrite E in Q. now injection Q as -> ->.
  - split; [discriminate|]. intros (k0 & v0 & H1 & H2 & _). assert (Q : cut ch_eq f = Some (k0, v0)) by (now apply cut_some). congruence.
Qed.
(** the value of a key is the one given last *)
Definition last_given {A} (given : str -> str -> A -> Prop) (frags : list str) (k : str) (v : A) : Prop :=
  exists p f q, frags = p ++ f :: q /\ given f k v /\ forall g w, In g q -> ~ given g k w.

Lemma fold_dict {A} (parse : str -> option (option (str * A))) (frags : list str) :
  let step := fun (d : list (str * A)) f => match parse f with None => Err ValueError | Some None => Ok d | Some (Some (k, v)) => Ok (dict_set k v d) end in
  ((exists f, In f frags /\ parse f = None) -> foldM step [] frags = Err ValueError)
  /\ ((forall f, In f frags -> parse f <> None) ->
       exists d, foldM step [] frags = Ok d /\ NoDup (map fst d)
         /\ forall k v, dict_get k d = Some v <-> last_given (fun f k v => parse f = Some (Some (k, v))) frags k v).
Proof.
  intros step. split.
  - intros (f & Hf & E). assert (G : forall d, foldM step d frags = Err ValueError).
    { induction frags as [|g frags IH]; [easy|]. intros d. cbn [foldM]. destruct Hf as [->|Hf].
      - unfold step at 1. rewrite E. reflexivity.
      - unfold step at 1. destruct (parse g) as [[[k v]|]|]; [apply (IH Hf) | apply (IH Hf) | reflexivity]. }
    apply G.
  - induction frags as [|f frags IH] using rev_ind; intros H.
    + exists []. split; [reflexivity|]. split; [constructor|]. intros k v. split; [discriminate|]. intros (p & f & q & E & _). destruct p; discriminate.
    + destruct IH as (d & E & ND & D); [intros; apply H, in_or_app; now left|]. rewrite foldM_snoc, E. cbn [bind]. unfold step.
      destruct (parse f) as [[[k0 v0]|]|] eqn:F; [| |exfalso; apply (H f); [apply in_or_app; right; now left | exact F]].
      * eexists. split; [reflexivity|]. split; [now apply dict_set_keys|]. intros k v. destruct (streq k0 k) eqn:K.
        -- apply streq_true in K. subst k. rewrite dict_get_set_same. split.
           ++ intros [= <-]. exists frags, f, []. repeat split; [exact F | easy].
           ++ intros (p & g & q & Q & G1 & G2). destruct q as [|z q] using rev_ind.
              ** apply app_inj_tail in Q as [_ <-]. congruence.
              ** rewrite app_comm_cons, app_assoc in Q. apply app_inj_tail in Q as [_ <-]. exfalso. apply (G2 f v0); [apply in_or_app; right; now left | exact F].
        -- apply streq_false in K. rewrite dict_get_set_other by exact K. rewrite D. split.
           ++ intros (p & g & q & -> & G1 & G2). exists p, g, (q ++ [f]). split; [rewrite <- app_assoc; reflexivity|]. split; [exact G1|].
              intros g' w Hg. apply in_app_or in Hg as [Hg|[<-|[]]]; [now apply G2 | congruence].
           ++ intros (p & g & q & Q & G1 & G2). destruct q as [|z q] using rev_ind.
              ** apply app_inj_tail in Q as [_ <-]. congruence.
              ** rewrite app_comm_cons, app_assoc in Q. apply app_inj_tail in Q as [Q _]. exists p, g, q. split; [exact Q|]. split; [exact G1|].
                 intros g' w Hg. apply G2. apply in_or_app. now left.
      * exists d. split; [reflexivity|]. split; [exact ND|]. intros k v. rewrite D. split.
        -- intros (p & g & q & -> & G1 & G2). exists p, g, (q ++ [f]). split; [rewrite <- app_assoc; reflexivity|]. split; [exact G1|].
           intros g' w Hg. apply in_app_or in Hg as [Hg|[<-|[]]]; [now apply G2 | congruence].
        -- intros (p & g & q & Q & G1 & G2). destruct q as [|z q] using rev_ind.
           ++ apply app_inj_tail in Q as [_ <-]. congruence.
           ++ rewrite app_comm_cons, app_assoc in Q. apply app_inj_tail in Q as [Q _]. exists p, g, q. split; [exact Q|]. split; [exact G1|].
              intros g' w Hg. apply G2. apply in_or_app. now left.
Qed.
Lemma foldM_ext {A B} (f g : A -> B -> res A) l : (forall a b, f a b = g a b) -> forall a, foldM f a l = foldM g a l.
Proof. intros H. induction l as [|x l IH]; intros a; cbn [foldM]; [reflexivity|]. rewrite H. destruct (g a x); [apply IH | reflexivity]. Qed.

Theorem C39_parse_dict frags : frags <> [] -> frags <> [[]] -> Forall (fun f => ~ In ch_bar f) frags ->
  ((exists f, In f frags /\ ~ In ch_eq f) -> parse_dict sp (join_with ch_bar frags) = Err ValueError)
  /\ ((forall f, In f frags -> In ch_eq f) ->
       exists d, parse_dict sp (join_with ch_bar frags) = Ok d /\ NoDup (map fst d)
         /\ forall k v, dict_get k d = Some v <-> last_given key_value frags k v).
Proof.
  intros H1 H2 H3. assert (J : join_with ch_bar frags <> []).
  { destruct frags as [|x [|y k]]; [easy| |]; cbn [join_with]; [intros ->; now apply H2 | destruct x; easy]. }
  pose (parse := fun f => match cut ch_eq f with Some (a, b) => Some (Some (strip sp a, strip sp b)) | None => None end).
  assert (E : parse_dict sp (join_with ch_bar frags) =
    foldM (fun d f => match parse f with None => Err ValueError | Some None => Ok d | Some (Some (k, v)) => Ok (dict_set k v d) end) [] frags).
  { unfold parse_dict. destruct (join_with ch_bar frags) as [|c s] eqn:Q; [easy|]. rewrite <- Q, split_on_joined by assumption.
    apply foldM_ext. intros d f. unfold parse_key_value, parse. destruct (cut ch_eq f) as [[a b]|]; reflexivity. }
  rewrite E. destruct (fold_dict parse frags) as [F1 F2]. split.
  - intros (f & Hf & Hn). apply F1. exists f. split; [exact Hf|]. unfold parse. apply cut_none in Hn. now rewrite Hn.
  - intros H. destruct F2 as (d & D1 & D2 & D3).
    + intros f Hf. unfold parse. destruct (cut ch_eq f) as [[a b]|] eqn:Q; [easy|]. apply cut_none in Q. exfalso. apply Q, H, Hf.
    + exists d. split; [exact D1|]. split; [exact D2|]. intros k v. rewrite D3. unfold last_given.
      assert (P : forall f k v, parse f = Some (Some (k, v)) <-> key_value f k v).
      { intros f k' v'. rewrite <- key_value_parse. unfold parse, parse_key_value. destruct (cut ch_eq f) as [[a b]|]; split; intros Q; try discriminate; now injection Q as <- <-. }
      split; intros (p & f & q & Q1 & Q2 & Q3); exists p, f, q; (split; [exact Q1|]; split; [now apply P | intros g w Hg Q; apply (Q3 g w Hg); now apply P]).
Qed.

(** lines of [key=value,value,...] *)
Fixpoint lines_of (l : list (str * N)) (last : str) : str :=
  match l with [] => last | (x, c) :: l' => x ++ c :: lines_of l' last end.
Definition no_break (s : str) : Prop := forall c, In c s -> lb c = false.
Lemma split_lines_of l last : Forall (fun xc => no_break (fst xc) /\ lb (snd xc) = true) l -> no_break last ->
  split_lines lb (lines_of l last) = map fst l ++ [last].
Proof.
  assert (N : forall s, no_break s -> split_lines lb s = [s]).
  { induction s as [|c s IH]; intros H; [reflexivity|]. cbn [split_lines]. rewrite (H c) by now left. rewrite IH; [reflexivity|]. intros d Hd. apply H. now right. }
  assert (A : forall x c s, no_break x -> lb c = true -> split_lines lb (x ++ c :: s) = x :: split_lines lb s).
  { induction x as [|d x IH]; intros c s H Hc; cbn [app split_lines]; [now rewrite Hc|].
    rewrite (H d) by now left. rewrite IH; [reflexivity | intros e He; apply H; now right | exact Hc]. }
  intros H HL. induction H as [|[x c] l [H1 H2] H IH]; cbn [lines_of map fst app]; [now apply N|]. rewrite A by assumption. now rewrite IH.
Qed.
Definition line_spellings (line k : str) (v : list str) : Prop :=
  exists k0 v0, strip sp line = k0 ++ ch_eq :: v0 /\ ~ In ch_eq k0 /\ strip sp k0 = k
    /\ join_with ch_comma v = strip sp v0 /\ Forall (fun x => ~ In ch_comma x) v /\ v <> [].
Theorem C39_alternative_spellings l last : Forall (fun xc => no_break (fst xc) /\ lb (snd xc) = true) l -> no_break last ->
  let lines := map fst l ++ [last] in
  ((exists x, In x lines /\ strip sp x <> [] /\ ~ In ch_eq (strip sp x)) -> parse_alternative_spellings sp lb (lines_of l last) = Err ValueError)
  /\ ((forall x, In x lines -> strip sp x <> [] -> In ch_eq (strip sp x)) ->
       exists d, parse_alternative_spellings sp lb (lines_of l last) = Ok d /\ NoDup (map fst d)
         /\ forall k v, dict_get k d = Some v <-> last_given line_spellings lines k v).
Proof.
  intros Hl HL lines.
  pose (parse := fun x => match strip sp x with [] => Some None | s => match cut ch_eq s with Some (a, b) => Some (Some (strip sp a, split_on ch_comma (strip sp b))) | None => None end end).
  assert (E : parse_alternative_spellings sp lb (lines_of l last) =
    foldM (fun d f => match parse f with None => Err ValueError | Some None => Ok d | Some (Some (k, v)) => Ok (dict_set k v d) end) [] lines).
  { unfold parse_alternative_spellings. rewrite split_lines_of by assumption. fold lines. apply foldM_ext. intros d f. unfold parse.
    destruct (strip sp f) as [|c s]; [reflexivity|]. destruct (cut ch_eq (c :: s)) as [[a b]|]; reflexivity. }
  rewrite E. destruct (fold_dict parse lines) as [F1 F2]. split.
  - intros (f & Hf & Hn & Hq). apply F1. exists f. split; [exact Hf|]. unfold parse. destruct (strip sp f) as [|c s]; [easy|]. apply cut_none in Hq. now rewrite Hq.
  - intros H. destruct F2 as (d & D1 & D2 & D3).
    + intros f Hf. unfold parse. specialize (H f Hf). destruct (strip sp f) as [|c s]; [easy|].
      destruct (cut ch_eq (c :: s)) as [[a b]|] eqn:Q; [easy|]. apply cut_none in Q. exfalso. apply Q, H. easy.
    + exists d. split; [exact D1|]. split; [exact D2|]. intros k v. rewrite D3. unfold last_given.
      assert (P : forall f k v, parse f = Some (Some (k, v)) <-> line_spellings f k v).
      { intros f k' v'. unfold parse, line_spellings. destruct (strip sp f) as [|c s] eqn:S.
        - split; [discriminate|]. intros (k0 & v0 & Q & _). destruct k0; discriminate.
        - destruct (cut ch_eq (c :: s)) as [[a b]|] eqn:Q.
          + pose proof (proj1 (cut_some _ _ _ _) Q) as [Q1 Q2]. split.
            * intros [= <- <-]. exists a, b. destruct (split_on_join ch_comma (strip sp b)) as [J1 J2]. repeat split; auto. apply split_on_ne.
            * intros (k0 & v0 & G1 & G2 & <- & G3 & G4 & G5). assert (Q' : cut ch_eq (c :: s) = Some (k0, v0)) by (now apply cut_some). rewrite Q in Q'. injection Q' as -> ->.
              rewrite <- G3. rewrite split_on_joined by assumption. reflexivity.
          + apply cut_none in Q. split; [discriminate|]. intros (k0 & v0 & G1 & _). exfalso. apply Q. rewrite G1. apply in_or_app. right. now left. }
      split; intros (p & f & q & Q1 & Q2 & Q3); exists p, f, q; (split; [exact Q1|]; split; [now apply P | intros g w Hg Q; apply (Q3 g w Hg); now apply P]).
Qed.
End KeyValue.
Example C39_example :
  parse_dict ascii_space (join_with ch_bar [u "a = 1=2"; u "b=3"; u "a=4"]) = Ok [(u "a", u "4"); (u "b", u "3")]
  /\ parse_dict ascii_space (u "a=1|b") = Err ValueError
  /\ parse_alternative_spellings ascii_space (N.eqb 10) (lines_of [(u " x = a,b ", 10%N); (u "  ", 10%N)] (u "y=c"))
     = Ok [(u "x", [u "a"; u "b"]); (u "y", [u "c"])].
Proof. repeat split; reflexivity. Qed.

Print Assumptions C37_fields.
Print Assumptions C37_no_selection.
Print Assumptions C37_sub_fields.
Print Assumptions C37_sub_fields_partial.
Print Assumptions C62_overrides.
Print Assumptions C62_sub_mapping.
Print Assumptions C38_items.
Print Assumptions C38_plain.
Print Assumptions C38_counts.
Print Assumptions C38_last_statement_partial.
Print Assumptions C39_parse_dict.
Print Assumptions C39_alternative_spellings.
