(** C24 and C25: references *)
From Verif Require Import Base ModelTags ProofTags ModelTei ModelTeiDoc SpecTeiWrite SpecTeiDoc ProofTeiDoc PropTeiDoc
  ModelJoined PropJoined ModelExtend PropExtend ModelTarget ModelReference.
Open Scope nat_scope.

(* ---------------------------------------------------------------- *)
(** ** C25: entities *)
Section Entities.
Context {A : Type} (get : A -> ostr).
Definition begins (t : A) : bool := is_begin (get t).

(** one entity: not empty, one tag value, a begin tag at most at the start *)
Definition entity (e : ostr * list A) : Prop :=
  snd e <> [] /\ Forall (fun t => value (get t) = fst e) (snd e) /\ Forall (fun t => begins t = false) (tl (snd e)).
(** neighbours have different values or the second starts with a begin tag *)
Definition apart (e f : ostr * list A) : Prop :=
  fst e <> fst f \/ match snd f with t :: _ => begins t = true | [] => False end.
Fixpoint apart_all (es : list (ostr * list A)) : Prop :=
  match es with
  | e :: ((f :: _) as es') => apart e f /\ apart_all es'
  | _ => True
  end.

Lemma entities_go_spec l : forall pv pending, (pending = [] \/ entity (pv, pending)) ->
  let es := entities_go get pv pending l in
  concat (map snd es) = pending ++ l /\ Forall entity es /\ apart_all es /\
  (pending <> [] -> match es with e :: _ => fst e = pv /\ firstn (length pending) (snd e) = pending | [] => False end).
Proof.
  induction l as [|t l IH]; intros pv pending He; cbn [entities_go].
  - destruct pending as [|x p]; cbn zeta; [repeat split; auto; constructor|].
    destruct He as [He|He]; [discriminate|]. cbn [map concat snd fst]. rewrite app_nil_r.
    split; [reflexivity|]. split; [now constructor|]. split; [exact I|].
    intros _. split; [reflexivity|]. apply firstn_all.
  - destruct (split_tag_prefix (get t)) as [p v] eqn:E.
    assert (Hv : value (get t) = v) by (unfold value; now rewrite E).
    assert (Hb : begins t = is_b p) by (unfold begins, is_begin, is_b; now rewrite E).
    assert (Hone : entity (v, [t])).
    { split; [discriminate|]. split; cbn; [constructor; auto|constructor]. }
    destruct pending as [|x pe].
    + destruct (IH v [t] (or_intror Hone)) as (I1 & I2 & I3 & I4). cbn [app] in *.
      repeat split; auto. congruence.
    + destruct He as [He|He]; [discriminate|].
      destruct (negb (ostreq pv v) || is_b p) eqn:Ec.
      * destruct (IH v [t] (or_intror Hone)) as (I1 & I2 & I3 & I4). cbn zeta.
        specialize (I4 ltac:(discriminate)). destruct (entities_go get v [t] l) as [|f es] eqn:Eg; [easy|].
        destruct I4 as [I4 I5]. cbn [map concat snd fst length] in *.
        split; [rewrite I1; reflexivity|]. split; [now constructor|]. split.
        -- split; [|exact I3]. unfold apart. cbn [fst snd]. rewrite I4.
           apply orb_prop in Ec as [Ec|Ec].
           ++ left. apply negb_true_iff, ostreq_false in Ec. exact Ec.
           ++ right. destruct (snd f) as [|y g]; [discriminate|]. cbn in I5. injection I5 as ->. congruence.
        -- intros _. split; [reflexivity|]. exact (firstn_all (x :: pe)).
      * apply orb_false_iff in Ec as [Ec1 Ec2]. apply negb_false_iff, ostreq_true in Ec1. subst v.
        assert (H2 : entity (pv, (x :: pe) ++ [t])).
        { destruct He as (_ & H2 & H3). cbn [fst snd] in *. split; [discriminate|]. cbn [fst snd]. split.
          - apply Forall_app. split; [exact H2|]. constructor; auto.
          - cbn [app tl] in *. apply Forall_app. split; [exact H3|]. constructor; [congruence|constructor]. }
        destruct (IH pv ((x :: pe) ++ [t]) (or_intror H2)) as (I1 & I2 & I3 & I4). cbn zeta.
        rewrite <- app_assoc in I1. split; [exact I1|]. split; [exact I2|]. split; [exact I3|].
        intros _. specialize (I4 ltac:(discriminate)). destruct (entities_go get pv ((x :: pe) ++ [t]) l) as [|f es]; [easy|].
        destruct I4 as [I4 I5]. split; [exact I4|].
        rewrite app_length in I5. cbn [length] in I5.
        assert (G : forall (a b c : list A), firstn (length a + length b) c = a ++ b -> firstn (length a) c = a).
        { clear. intros a b c H. transitivity (firstn (length a) (firstn (length a + length b) c)).
          - rewrite firstn_firstn. f_equal. lia.
          - rewrite H, firstn_app, Nat.sub_diag, firstn_all, firstn_O. apply app_nil_r. }
        exact (G (x :: pe) [t] (snd f) I5).
Qed.

(** The groups are the token sequence, in order; every group is an entity and
    neighbours are apart. *)
Theorem C25_partition l :
  concat (map snd (tag_entities get l)) = l /\ Forall entity (tag_entities get l) /\ apart_all (tag_entities get l).
Proof.
  destruct (entities_go_spec l None [] (or_introl eq_refl)) as (H1 & H2 & H3 & _). auto.
Qed.

Lemma apart_all_tail e es : apart_all (e :: es) -> apart_all es.
Proof. destruct es; [exact (fun _ => I)|]. now intros [_ H]. Qed.
(** There is no other grouping of this kind. *)
Lemma entities_unique es : forall fs, Forall entity es -> Forall entity fs -> apart_all es -> apart_all fs ->
  concat (map snd es) = concat (map snd fs) -> es = fs.
Proof.
  induction es as [|[v g] es IH]; intros [|[w h] fs] E1 E2 A1 A2 Hc.
  - reflexivity.
  - inversion E2 as [|? ? (Hn & _) _]; subst. cbn in *. destruct h; [congruence|discriminate].
  - inversion E1 as [|? ? (Hn & _) _]; subst. cbn in *. destruct g; [congruence|discriminate].
  - inversion E1 as [|? ? (G1 & G2 & G3) E1']; subst. inversion E2 as [|? ? (H1 & H2 & H3) E2']; subst.
    cbn [map concat fst snd] in *.
    destruct g as [|x g]; [congruence|]. destruct h as [|y h]; [congruence|]. cbn [tl] in *.
    cbn [app] in Hc. injection Hc as <- Hc.
    assert (Ev : v = w) by (inversion G2; inversion H2; congruence). subst w.
    inversion G2 as [|? ? Hx G2']; subst. inversion H2 as [|? ? _ H2']; subst. clear G2 H2.
    (* the longer one of the two would have a token that starts a new entity *)
    assert (K : forall (a b : list A) (l1 l2 : list (ostr * list A)), Forall entity l1 -> apart_all ((value (get x), x :: a) :: l1) ->
      Forall (fun t => value (get t) = value (get x)) b -> Forall (fun t => begins t = false) b ->
      a ++ concat (map snd l1) = b ++ concat (map snd l2) -> length b <= length a).
    { clear. induction a as [|z a IHa]; intros b l1 l2 He Ha Hb Hg Hc.
      - cbn [app] in Hc. destruct b as [|y b]; [cbn; lia|]. exfalso.
        destruct l1 as [|[v' g'] l1]; [discriminate|]. destruct Ha as [Ha _].
        inversion He as [|? ? (F1 & F2 & _) _]; subst. cbn [fst snd] in *. destruct g' as [|z g']; [congruence|].
        cbn in Hc. injection Hc as -> Hc. inversion Hb; subst. inversion Hg; subst. inversion F2; subst.
        destruct Ha as [Ha|Ha]; cbn in Ha; congruence.
      - destruct b as [|y b]; [cbn; lia|]. cbn [app] in Hc. injection Hc as -> Hc. cbn [length]. apply le_n_S.
        inversion Hb; subst. inversion Hg; subst. refine (IHa b l1 l2 He _ _ _ Hc); auto. }
    assert (L1 : length h <= length g).
    { refine (K g h es fs E1' _ H2' H3 Hc). exact A1. }
    assert (L2 : length g <= length h).
    { refine (K h g fs es E2' _ G2' G3 (eq_sym Hc)). exact A2. }
    assert (Hgh : g = h /\ concat (map snd es) = concat (map snd fs)).
    { assert (L : length g = length h) by lia. clear -Hc L. revert h Hc L.
      induction g as [|z g IHg]; intros [|z' h] Hc L; try discriminate; [auto|].
      cbn in Hc. injection Hc as <- Hc. injection L as L. destruct (IHg h Hc L). split; congruence. }
    destruct Hgh as [<- Hc']. f_equal. apply IH; auto.
    + now apply apart_all_tail in A1.
    + now apply apart_all_tail in A2.
Qed.
Theorem C25_unique l es : concat (map snd es) = l -> Forall entity es -> apart_all es -> es = tag_entities get l.
Proof.
  intros H1 H2 H3. destruct (C25_partition l) as (P1 & P2 & P3). apply entities_unique; auto. congruence.
Qed.
End Entities.

Example C25_ex : tag_entities (fun x => x) [Some (u "b-ref"); Some (u "i-ref"); None; None; Some (u "i-ref"); Some (u "b-ref"); Some (u "b-ref")] =
  [(Some (u "ref"), [Some (u "b-ref"); Some (u "i-ref")]); (None, [None; None]); (Some (u "ref"), [Some (u "i-ref")]);
   (Some (u "ref"), [Some (u "b-ref")]); (Some (u "ref"), [Some (u "b-ref")])].
Proof. reflexivity. Qed.

(* ---------------------------------------------------------------- *)
(** ** C24: prefixes, suffixes and et al. *)

(** *** Specification *)
Definition rvalue (x : rtok) : ostr := value (rt_tag x).
(** text of consecutive tokens and the character range of each of them in it *)
Definition rpieces (l : list rtok) : list (str * str) :=
  map (fun x => (rt_text x, match rt_ws x with Some w => w | None => u " " end)) l.
Definition rtext (l : list rtok) : str := glue (rpieces l).
Definition rspans (l : list rtok) : list irange := spans (rpieces l).
Definition first_tag (l : list rtok) : ostr := match l with x :: _ => rt_tag x | [] => None end.
(** tokens as they occur: tags are none or have a value, texts are not empty *)
Definition rplain (x : rtok) : Prop := plain (rt_tag x) /\ rt_text x <> [].

Section Spec.
Variable search : str -> str -> option Z.
Variable regexes : list (str * str).
Variable enabled : list str.

(** where the prefix of a field starts in an untagged text *)
Definition prefix_start (v : ostr) (text : str) : option Z :=
  match v with
  | Some f => if mem f enabled then match dict_get f regexes with Some rx => search rx text | None => None end else None
  | None => None
  end.
(** number of tokens of the untagged [gap] that end after the start of the prefix of
    the field that follows, with tag [t] *)
Definition prefix_count (gap : list rtok) (t : ostr) : nat :=
  match prefix_start (value t) (rtext gap) with
  | Some st => length (filter (fun r : irange => (st <? snd r)%Z) (rspans gap))
  | None => 0
  end.
Definition prefix_tags (gap : list rtok) (t : ostr) : list ostr :=
  match prefix_count gap t with
  | O => repeat None (length gap)
  | S k => repeat None (length gap - S k) ++ t :: repeat (inside t) k
  end.
(** the tags of the field after the gap: it no longer starts the entity *)
Definition prefixed_run (gap run : list rtok) : list ostr :=
  match prefix_count gap (first_tag run), run with
  | S _, x :: run' => inside (rt_tag x) :: map rt_tag run'
  | _, _ => map rt_tag run
  end.

(** a full stop after a field is tagged *)
Definition suffix_count (v : ostr) (gap : list rtok) : nat :=
  match v, gap with
  | Some f, x :: _ => if mem f enabled && starts_with (u ".") (rt_text x) then 1 else 0
  | _, _ => 0
  end.
Definition suffix_tags (t : ostr) (gap : list rtok) : list ostr :=
  repeat (inside t) (suffix_count (value t) gap) ++ repeat None (length gap - suffix_count (value t) gap).
End Spec.

(** [gap] and [run] are maximal groups in [pre ++ gap ++ run ++ post] ([gap] may be empty) *)
Definition uniform (v : ostr) (l : list rtok) : Prop := Forall (fun x => rvalue x = v) l.
Definition last_differs (l : list rtok) (v : ostr) : Prop :=
  match rev l with x :: _ => rvalue x <> v | [] => True end.
Definition next_differs (v : ostr) (l : list rtok) : Prop :=
  match l with x :: _ => rvalue x <> v | [] => True end.
Definition gap_before (pre gap run post : list rtok) (v : ostr) : Prop :=
  v <> None /\ run <> [] /\ uniform None gap /\ uniform v run /\
  last_differs pre None /\ last_differs (pre ++ gap) v /\ next_differs v post.
Definition gap_after (pre run gap post : list rtok) (v : ostr) : Prop :=
  v <> None /\ run <> [] /\ uniform v run /\ uniform None gap /\
  last_differs pre v /\ next_differs v (gap ++ post) /\ next_differs None post.

(** *** grouping by a key *)
Definition rsame (a b : rtok) : bool := same_value (rt_tag a) (rt_tag b).
Lemma rgroups_cons x l : exists g gs, rgroups (x :: l) = (x :: g) :: gs.
Proof. apply group_by_cons. Qed.
Lemma rgroups_uniform v l : l <> [] -> uniform v l -> rgroups l = [l].
Proof.
  intros Hn Hu. induction l as [|x l IH]; [congruence|]. inversion Hu; subst. destruct l as [|y l]; [reflexivity|].
  unfold rgroups in *. cbn [group_by] in *. rewrite IH; [|discriminate|assumption].
  replace (same_value (rt_tag x) (rt_tag y)) with true; [reflexivity|]. symmetry. apply same_value_true.
  inversion H2; subst. unfold rvalue in *. congruence.
Qed.
Lemma rgroups_app a b : match rev a, b with x :: _, y :: _ => rvalue x <> rvalue y | _, _ => True end ->
  rgroups (a ++ b) = rgroups a ++ rgroups b.
Proof.
  revert b. induction a as [|x a IH]; intros b H; [reflexivity|]. destruct a as [|y a].
  - cbn [app]. destruct b as [|z b]; [reflexivity|].
    destruct (rgroups_cons z b) as (g & gs & E). unfold rgroups in *. cbn [group_by] in *. rewrite E.
    cbn in H. apply same_value_false in H. rewrite H. reflexivity.
  - assert (H' : match rev (y :: a), b with x :: _, y :: _ => rvalue x <> rvalue y | _, _ => True end).
    { cbn [rev] in *. destruct (rev a ++ [y]) eqn:E; [destruct (rev a); discriminate|]. cbn [app] in H. exact H. }
    specialize (IH b H'). cbn [app] in *. destruct (rgroups_cons y a) as (g & gs & E).
    destruct (rgroups_cons y (a ++ b)) as (g' & gs' & E').
    unfold rgroups in *. cbn [group_by] in *. rewrite E' in *. rewrite E in *. cbn [app] in IH. injection IH as -> ->.
    destruct (same_value (rt_tag x) (rt_tag y)); reflexivity.
Qed.
Lemma rgroups_concat l : concat (rgroups l) = l.
Proof. apply group_by_concat. Qed.
Lemma uniform_hd v l x l' : uniform v l -> l = x :: l' -> rvalue x = v.
Proof. intros H ->. now inversion H. Qed.
Lemma last_hd a b v : last_differs a v -> uniform v b ->
  match rev a, b with x :: _, y :: _ => rvalue x <> rvalue y | _, _ => True end.
Proof. unfold last_differs. intros H Hu. destruct (rev a), b; auto. inversion Hu; subst. congruence. Qed.
Lemma hd_last a b v : uniform v a -> next_differs v b ->
  match rev a, b with x :: _, y :: _ => rvalue x <> rvalue y | _, _ => True end.
Proof.
  unfold next_differs. intros Hu H. apply Forall_rev in Hu. destruct (rev a), b; auto. inversion Hu; subst. congruence.
Qed.
Lemma gap_before_groups pre gap run post v : gap_before pre gap run post v ->
  rgroups (pre ++ gap ++ run ++ post) =
    rgroups pre ++ (match gap with [] => [] | _ => [gap] end) ++ run :: rgroups post.
Proof.
  intros (Hv & Hn & Hg & Hr & H1 & H2 & H3).
  assert (E : rgroups (run ++ post) = run :: rgroups post).
  { rewrite rgroups_app by (eapply hd_last; eauto). rewrite (rgroups_uniform v) by auto. reflexivity. }
  destruct gap as [|x gap].
  - rewrite app_nil_r in H2. cbn [app]. rewrite rgroups_app, E; [reflexivity|].
    pose proof (last_hd pre run v H2 Hr) as K. destruct (rev pre), run; auto; congruence.
  - set (g := x :: gap) in *. rewrite rgroups_app, rgroups_app, E.
    + rewrite (rgroups_uniform None g) by (auto; discriminate). reflexivity.
    + eapply hd_last; [exact Hg|]. destruct run as [|y run]; [congruence|]. cbn. inversion Hr; subst. congruence.
    + pose proof (last_hd pre g None H1 Hg) as K. destruct (rev pre); auto.
Qed.
Lemma gap_after_groups pre run gap post v : gap_after pre run gap post v ->
  rgroups (pre ++ run ++ gap ++ post) =
    rgroups pre ++ run :: (match gap with [] => [] | _ => [gap] end) ++ rgroups post.
Proof.
  intros (Hv & Hn & Hr & Hg & H1 & H2 & H3).
  assert (E : rgroups (gap ++ post) = (match gap with [] => [] | _ => [gap] end) ++ rgroups post).
  { destruct gap as [|x gap]; [reflexivity|]. rewrite rgroups_app by (eapply hd_last; eauto).
    rewrite (rgroups_uniform None) by (auto; discriminate). reflexivity. }
  rewrite rgroups_app, rgroups_app, E.
  - rewrite (rgroups_uniform v run) by auto. reflexivity.
  - eapply hd_last; eauto.
  - pose proof (last_hd pre run v H1 Hr) as K. destruct (rev pre), run; auto; congruence.
Qed.

(** *** joined texts *)
Lemma rjoin g : join_with_index_ranges (map rt_text g) (u " ") [] (map rt_ws g) = Ok (rtext g, rspans g).
Proof.
  rewrite C13_join by (right; now rewrite !map_length).
  assert (E : combine (map rt_text g) (gaps (u " ") (map rt_ws g) (map rt_text g)) = rpieces g).
  { unfold gaps. destruct g as [|x g]; [reflexivity|]. cbn [map]. cbv beta iota.
    change (default_ws (u " ") (rt_ws x) :: map (default_ws (u " ")) (map rt_ws g))
      with (map (default_ws (u " ")) (map rt_ws (x :: g))).
    change (rt_text x :: map rt_text g) with (map rt_text (x :: g)). generalize (x :: g) as l.
    unfold rpieces. induction l as [|y l IH]; [reflexivity|]. cbn [map combine]. f_equal. exact IH. }
  now rewrite E.
Qed.
Lemma rspans_length g : length (rspans g) = length g.
Proof. unfold rspans, rpieces. now rewrite spans_length, map_length. Qed.
Lemma rbetween g q : length (items_between g (rspans g) q) = length (filter (fun r => overlaps r q) (rspans g)).
Proof.
  rewrite items_between_eq; [|now rewrite rspans_length|apply spans_sorted].
  assert (Hl : length g = length (rspans g)) by now rewrite rspans_length.
  revert Hl. generalize (rspans g) as rs. induction g as [|x g IH]; intros [|r rs] Hl; try discriminate; [reflexivity|].
  injection Hl as Hl. cbn [combine filter snd]. destruct (overlaps r q); cbn [length]; now rewrite IH.
Qed.
(** for texts that are not empty *)
Lemma rspans_proper g r : Forall rplain g -> In r (rspans g) -> (0 <= fst r < snd r /\ snd r <= zlen (rtext g))%Z.
Proof.
  intros Hp Hr. apply In_nth_error in Hr as [i Hi]. destruct (spans_nth _ _ _ Hi) as (x & y & H1 & H2 & H3).
  destruct (found_inside _ _ _ H3) as [F1 F2]. split; [|exact (proj2 F2)]. split; [exact F1|].
  unfold rpieces in H1. rewrite nth_error_map in H1. destruct (nth_error g i) as [t|] eqn:E; [|discriminate].
  injection H1 as <- <-. rewrite Forall_forall in Hp. apply nth_error_In in E. apply Hp in E as [_ E].
  destruct H3 as (a & b & _ & ->). cbn [fst snd]. destruct (rt_text t); [congruence|]. unfold zlen at 3. cbn [length]. lia.
Qed.

(** *** prefixes *)
Lemma filter_length_le {A} (f : A -> bool) l : length (filter f l) <= length l.
Proof. induction l as [|x l IH]; [auto|]. cbn. destruct (f x); cbn; lia. Qed.
Lemma uniform_none g : Forall rplain g -> uniform None g -> map rt_tag g = repeat None (length g).
Proof.
  induction g as [|x g IH]; intros Hp Hu; [reflexivity|]. inversion Hp as [|? ? [P _] Hp']; subst. inversion Hu; subst. cbn [map length repeat].
  f_equal; [now apply plain_value_none|now apply IH].
Qed.
Lemma uniform_truthy v g x g' : v <> None -> Forall rplain g -> uniform v g -> g = x :: g' -> truthy (rt_tag x) = true.
Proof.
  intros Hv Hp Hu ->. inversion Hp as [|? ? [P _] _]; subst. inversion Hu; subst. unfold rvalue in Hv.
  destruct P as [P|P]; [rewrite P in Hv; now elim Hv|]. rewrite plain_truthy; [exact P|now right].
Qed.
Lemma rinside_tags g : Forall rplain g -> map rt_tag (rinside_first g) = inside_first (map rt_tag g).
Proof. destruct g; reflexivity. Qed.
Lemma rinside_text g : rtext (rinside_first g) = rtext g.
Proof. destruct g; reflexivity. Qed.
Lemma rinside_length g : length (rinside_first g) = length g.
Proof. destruct g; reflexivity. Qed.
Lemma rinside_plain g : Forall rplain g -> Forall rplain (rinside_first g).
Proof.
  destruct g as [|x g]; intros H; [exact H|]. inversion H as [|? ? [P Q] H']; subst. constructor; [|exact H'].
  split; [|exact Q]. cbn [rt_tag fst]. unfold rt_tag at 1. cbn [fst]. rewrite to_inside_inside by exact P. now apply inside_plain.
Qed.
Lemma rinside_truthy g : Forall rplain g -> truthy (first_tag (rinside_first g)) = truthy (first_tag g).
Proof.
  destruct g as [|x g]; intros H; [reflexivity|]. inversion H as [|? ? [P Q] H']; subst. cbn [rinside_first first_tag].
  unfold rt_tag at 1. cbn [fst]. rewrite to_inside_inside by exact P.
  rewrite (plain_truthy (inside (rt_tag x))), (plain_truthy (rt_tag x)) by (try apply inside_plain; exact P). now rewrite inside_value by exact P.
Qed.

Section Prefix.
Variable search : str -> str -> option Z.
Variable regexes : list (str * str).
Variable en : list str.
Notation prefix_group := (prefix_group search regexes en).
Notation prefix_go := (prefix_go search regexes en).

Lemma prefix_group_tagged g next : truthy (first_tag g) = true -> prefix_group g next = Ok (map rt_tag g, false).
Proof.
  intros H. unfold ModelReference.prefix_group. destruct (split_tag_prefix _) as [p v]. destruct v; [|reflexivity].
  replace (hd None (map rt_tag g)) with (first_tag g) by now destruct g. rewrite H. reflexivity.
Qed.
Lemma prefix_group_last g : prefix_group g None = Ok (map rt_tag g, false).
Proof. reflexivity. Qed.
Lemma prefix_group_length g next x : prefix_group g next = Ok x -> length (fst x) = length g.
Proof.
  unfold ModelReference.prefix_group. destruct (split_tag_prefix _) as [p v].
  assert (Hm : forall b : bool, Ok (map rt_tag g, b) = Ok x -> length (fst x) = length g).
  { intros b [= <-]. apply map_length. }
  destruct v as [v|]; [|apply Hm]. destruct (_ || _); [apply Hm|]. rewrite rjoin. cbn [bind fst snd].
  destruct (dict_get v regexes); [|discriminate]. destruct (search _ _) as [st|]; [|apply Hm].
  destruct (length (items_between _ _ _)) as [|k] eqn:E; [apply Hm|].
  rewrite rbetween in E. pose proof (filter_length_le (fun r => overlaps r (st, zlen (rtext g))) (rspans g)) as L.
  rewrite E, rspans_length in L. intros [= <-]. cbn [fst]. rewrite app_length, repeat_length. cbn [length].
  rewrite repeat_length. lia.
Qed.
(** the count of the model is that of the specification *)
Lemma prefix_items g st : Forall rplain g ->
  length (filter (fun r => overlaps r (st, zlen (rtext g))) (rspans g)) =
  length (filter (fun r : irange => (st <? snd r)%Z) (rspans g)).
Proof.
  intros Hp. f_equal. apply filter_ext_in. intros r Hr. destruct (rspans_proper g r Hp Hr) as [H1 H2].
  unfold overlaps. cbn [fst snd]. replace (fst r <? zlen (rtext g))%Z with true by (symmetry; apply Z.ltb_lt; lia).
  reflexivity.
Qed.
Lemma prefix_group_gap g run x : Forall rplain g -> g <> [] -> uniform None g -> Forall rplain run ->
  prefix_group g (Some run) = Ok x ->
  fst x = prefix_tags search regexes en g (first_tag run) /\
  snd x = negb (Nat.eqb (prefix_count search regexes en g (first_tag run)) 0) && is_begin (first_tag run).
Proof.
  intros Hp Hn Hu Hr. pose proof (uniform_none g Hp Hu) as Ht.
  assert (Pt : plain (first_tag run)) by (destruct run as [|y run]; [now left|inversion Hr as [|? ? [P _] _]; exact P]).
  unfold ModelReference.prefix_group, prefix_tags, prefix_count, prefix_start, is_begin.
  change (match run with x0 :: _ => rt_tag x0 | [] => None end) with (first_tag run).
  change (value (first_tag run)) with (snd (split_tag_prefix (first_tag run))).
  rewrite Ht. destruct (split_tag_prefix (first_tag run)) as [p v]. cbn [snd fst].
  assert (Hm : forall b, Ok (repeat None (length g), false) = Ok x -> fst x = repeat None (length g) /\ snd x = negb (Nat.eqb 0 0) && b).
  { intros b [= <-]. auto. }
  destruct v as [v|]; [|apply Hm].
  replace (truthy (hd None (repeat None (length g)))) with false by (destruct g; [congruence|reflexivity]).
  cbn [orb]. destruct (mem v en); cbn [negb]; [|apply Hm].
  rewrite rjoin. cbn [bind fst snd]. destruct (dict_get v regexes) as [rx|]; [|discriminate].
  destruct (search rx (rtext g)) as [st|]; [|apply Hm]. rewrite rbetween, prefix_items by exact Hp.
  destruct (length (filter _ (rspans g))) as [|k]; [apply Hm|].
  intros [= <-]. cbn [fst snd Nat.eqb negb andb]. rewrite to_inside_inside by exact Pt. auto.
Qed.

Lemma prefix_go_app gs1 : forall c gs2 r, Forall (fun g => Forall rplain g) gs1 -> prefix_go c (gs1 ++ gs2) = Ok r ->
  exists r1 r2 c', r = r1 ++ r2 /\ prefix_go c' gs2 = Ok r2 /\ length r1 = length (concat gs1) /\
    (gs1 = [] -> c' = c) /\ (gs1 <> [] -> truthy (first_tag (last gs1 [])) = true -> c' = false).
Proof.
  induction gs1 as [|g gs1 IH]; intros c gs2 r Hp H.
  - exists [], r, c. repeat split; auto. congruence.
  - inversion Hp as [|? ? Hg Hp']; subst. cbn [app ModelReference.prefix_go] in H.
    destruct (prefix_group _ _) as [x|] eqn:E1; [|discriminate]. cbn [bind] in H.
    destruct (prefix_go (snd x) (gs1 ++ gs2)) as [r'|] eqn:E2; [|discriminate]. cbn [bind] in H. injection H as <-.
    destruct (IH _ _ _ Hp' E2) as (r1 & r2 & c' & -> & H1 & H2 & H3 & H4).
    exists (fst x ++ r1), r2, c'. split; [now rewrite app_assoc|]. split; [exact H1|]. split.
    { rewrite app_length, (prefix_group_length _ _ _ E1), H2. cbn [concat]. rewrite app_length.
      destruct c; [rewrite rinside_length|]; reflexivity. }
    split; [discriminate|]. intros _. destruct gs1 as [|g' gs1].
    + cbn [last]. intros Ht. rewrite (H3 eq_refl). rewrite prefix_group_tagged in E1; [now injection E1 as <-|].
      destruct c; [now rewrite rinside_truthy|exact Ht].
    + intros Ht. apply H4; [discriminate|]. exact Ht.
Qed.
Lemma prefix_go_length gs c r : Forall (fun g => Forall rplain g) gs -> prefix_go c gs = Ok r -> length r = length (concat gs).
Proof.
  intros Hp H. rewrite <- (app_nil_r gs) in H. destruct (prefix_go_app gs c [] r Hp H) as (r1 & r2 & c' & -> & H1 & H2 & _).
  cbn in H1. injection H1 as <-. now rewrite app_nil_r.
Qed.

Lemma rgroups_wf l : Forall (fun g => g <> [] /\ exists v, uniform v g) (rgroups l).
Proof.
  induction l as [|x l IH]; [constructor|]. unfold rgroups in *. cbn [group_by].
  destruct (group_by _ l) as [|[|y g] gs] eqn:E.
  - repeat constructor; [discriminate|]. exists (rvalue x). constructor; [reflexivity|constructor].
  - inversion IH as [|? ? [H _] _]; subst. congruence.
  - inversion IH as [|? ? [_ [v Hv]] IH']; subst. destruct (same_value (rt_tag x) (rt_tag y)) eqn:Es.
    + constructor; [|exact IH']. split; [discriminate|]. exists v. constructor; [|exact Hv].
      apply same_value_true in Es. inversion Hv; subst. exact Es.
    + constructor; [|exact IH]. split; [discriminate|]. exists (rvalue x). constructor; [reflexivity|constructor].
Qed.
Lemma groups_plain gs : Forall rplain (concat gs) -> Forall (fun g => Forall rplain g) gs.
Proof.
  induction gs as [|g gs IH]; intros H; [constructor|]. cbn in H. apply Forall_app in H as [H1 H2]. constructor; auto.
Qed.
Lemma last_group pre v : Forall rplain pre -> pre <> [] -> last_differs pre v ->
  let g := last (rgroups pre) [] in rgroups pre <> [] /\ g <> [] /\ Forall rplain g /\ exists w, w <> v /\ uniform w g.
Proof.
  intros Hp Hn Hl. assert (Hg : rgroups pre <> []) by (destruct pre as [|x pre]; [congruence|]; destruct (rgroups_cons x pre) as (? & ? & ->); discriminate).
  destruct (exists_last Hg) as (gs & g & E). cbn zeta. rewrite E, last_last.
  split; [destruct gs; discriminate|]. pose proof (rgroups_wf pre) as W. rewrite E in W. apply Forall_app in W as [_ W].
  inversion W as [|? ? [G1 [w G2]] _]; subst. pose proof (rgroups_concat pre) as C. rewrite E, concat_app in C. cbn in C.
  rewrite app_nil_r in C. split; [exact G1|]. split; [rewrite <- C in Hp; now apply Forall_app in Hp|].
  exists w. split; [|exact G2]. unfold last_differs in Hl. rewrite <- C, rev_app_distr in Hl.
  apply Forall_rev in G2. destruct (rev g) as [|y r] eqn:Er.
  - apply (f_equal (@rev rtok)) in Er. rewrite rev_involutive in Er. contradiction.
  - cbn [app] in Hl. inversion G2; subst. exact Hl.
Qed.
Lemma prefix_start_state pre gs r : Forall rplain pre -> last_differs pre None -> prefix_go false (rgroups pre ++ gs) = Ok r ->
  exists r1 r2, r = r1 ++ r2 /\ prefix_go false gs = Ok r2 /\ length r1 = length pre.
Proof.
  intros Hp Hl H. assert (Hg : Forall (fun g => Forall rplain g) (rgroups pre)) by (apply groups_plain; now rewrite rgroups_concat).
  destruct (prefix_go_app _ _ _ _ Hg H) as (r1 & r2 & c' & -> & H1 & H2 & H3 & H4). rewrite rgroups_concat in H2.
  exists r1, r2. split; [reflexivity|]. split; [|exact H2].
  assert (c' = false) as ->; [|exact H1].
  destruct pre as [|x pre]; [now apply H3|].
  destruct (last_group (x :: pre) None Hp ltac:(discriminate) Hl) as (L1 & L2 & L3 & w & L4 & L5).
  apply H4; [exact L1|]. destruct (last (rgroups (x :: pre)) []) as [|y g] eqn:E; [congruence|].
  cbn [first_tag]. exact (uniform_truthy w _ y g L4 L3 L5 eq_refl).
Qed.

Lemma prefix_main pre gap run post v r : Forall rplain (pre ++ gap ++ run ++ post) -> gap_before pre gap run post v ->
  prefix_go false (rgroups (pre ++ gap ++ run ++ post)) = Ok r ->
  exists r1 r2, r = r1 ++ prefix_tags search regexes en gap (first_tag run) ++ prefixed_run search regexes en gap run ++ r2 /\
    length r1 = length pre /\ length r2 = length post.
Proof.
  intros Hp Hb H. rewrite (gap_before_groups _ _ _ _ _ Hb) in H.
  apply Forall_app in Hp as [P1 Hp]. apply Forall_app in Hp as [P2 Hp]. apply Forall_app in Hp as [P3 P4].
  destruct Hb as (Hv & Hn & Hg & Hr & H1 & H2 & H3).
  destruct (prefix_start_state _ _ _ P1 H1 H) as (r1 & r0 & -> & E & L1). clear H. exists r1.
  assert (Gp : Forall (fun g => Forall rplain g) (rgroups post)) by (apply groups_plain; now rewrite rgroups_concat).
  assert (Ht : truthy (first_tag run) = true).
  { destruct run as [|y run']; [congruence|]. exact (uniform_truthy v _ y run' Hv P3 Hr eq_refl). }
  assert (K : forall c r', prefix_go c (run :: rgroups post) = Ok r' ->
    exists r2, r' = map rt_tag (if c then rinside_first run else run) ++ r2 /\ length r2 = length post).
  { intros c r' E'. cbn [ModelReference.prefix_go] in E'. rewrite prefix_group_tagged in E'
      by (destruct c; [now rewrite rinside_truthy|exact Ht]). cbn [bind fst snd] in E'.
    destruct (prefix_go false (rgroups post)) as [r2|] eqn:Er; [|discriminate]. cbn [bind] in E'. injection E' as <-.
    exists r2. split; [reflexivity|]. apply prefix_go_length in Er; [|exact Gp]. now rewrite rgroups_concat in Er. }
  destruct gap as [|x gap].
  - destruct (K _ _ E) as (r2 & -> & L2). exists r2. split; [|auto].
    assert (Z : prefix_count search regexes en [] (first_tag run) = 0) by (unfold prefix_count; now destruct (prefix_start _ _ _ _ _)).
    unfold prefix_tags, prefixed_run. rewrite Z. cbn [length repeat app]. reflexivity.
  - set (g := x :: gap) in *. cbn [app ModelReference.prefix_go hd_error] in E.
    destruct (prefix_group g (Some run)) as [y|] eqn:Eg; [|discriminate]. cbn [bind] in E.
    apply prefix_group_gap in Eg as [E1 E2]; auto; [|discriminate].
    destruct (prefix_go (snd y) (run :: rgroups post)) as [r'|] eqn:Er.
    2:{ cbn [ModelReference.prefix_go] in Er. rewrite Er in E. discriminate. }
    cbn [ModelReference.prefix_go hd_error] in Er. rewrite Er in E. cbn [bind] in E. injection E as <-.
    change (prefix_go (snd y) (run :: rgroups post) = Ok r') in Er.
    destruct (K _ _ Er) as (r2 & -> & L2). exists r2. split; [|auto]. rewrite E1, E2. do 3 f_equal.
    unfold prefixed_run. destruct (prefix_count _ _ _ g (first_tag run)) as [|k]; [reflexivity|]. cbn [Nat.eqb negb andb].
    destruct run as [|z run]; [congruence|]. inversion P3 as [|? ? [P _] _]; subst. cbn [first_tag].
    destruct (is_begin (rt_tag z)) eqn:Eb.
    + cbn [rinside_first map]. unfold rt_tag at 1. cbn [fst]. now rewrite to_inside_inside.
    + cbn [map]. f_equal. rewrite <- to_inside_inside by exact P. unfold to_inside_tag, is_begin in *.
      destruct (split_tag_prefix (rt_tag z)) as [p q]. cbn [fst] in Eb. now rewrite Eb.
Qed.
Lemma prefix_rest pre gap r : Forall rplain (pre ++ gap) -> uniform None gap -> last_differs pre None ->
  prefix_go false (rgroups (pre ++ gap)) = Ok r ->
  exists r1, r = r1 ++ repeat None (length gap) /\ length r1 = length pre.
Proof.
  intros Hp Hu Hl H. rewrite rgroups_app in H by (eapply last_hd; eauto). apply Forall_app in Hp as [P1 P2].
  destruct (prefix_start_state _ _ _ P1 Hl H) as (r1 & r2 & -> & E & L). exists r1. split; [|exact L]. f_equal.
  destruct gap as [|x gap]; [now injection E as <-|].
  rewrite (rgroups_uniform None) in E by (auto; discriminate). cbn [ModelReference.prefix_go] in E.
  rewrite prefix_group_last in E. cbn in E. injection E as <-. rewrite app_nil_r.
  exact (uniform_none (x :: gap) P2 Hu).
Qed.
Lemma prefix_total gs : forall c, (forall v, In v en -> dict_get v regexes <> None) -> exists r, prefix_go c gs = Ok r.
Proof.
  induction gs as [|g gs IH]; intros c H; [now exists []|]. cbn [ModelReference.prefix_go].
  assert (G : forall g next, exists x, prefix_group g next = Ok x).
  { clear g. intros g next. unfold ModelReference.prefix_group. destruct (split_tag_prefix _) as [p v].
    destruct v as [v|]; [|eauto]. destruct (truthy _); cbn [orb]; [eauto|]. destruct (mem v en) eqn:M; cbn [negb]; [|eauto].
    rewrite rjoin. cbn [bind]. apply mem_In in M. apply H in M. destruct (dict_get v regexes); [|congruence].
    destruct (search _ _); [|eauto]. destruct (length _); eauto. }
  destruct (G (if c then rinside_first g else g) (hd_error gs)) as [x ->]. cbn [bind].
  destruct (IH (snd x) H) as [r ->]. cbn [bind]. eauto.
Qed.
End Prefix.

(** *** suffixes *)
Section Suffix.
Variable en : list str.
Lemma suffix_group_tagged prev g : truthy (first_tag g) = true -> suffix_group en prev g = Ok (map rt_tag g).
Proof.
  intros H. unfold suffix_group. destruct (strip_tag_prefix _); [|reflexivity].
  replace (hd None (map rt_tag g)) with (first_tag g) by now destruct g. rewrite H. reflexivity.
Qed.
Lemma suffix_group_first g : suffix_group en None g = Ok (map rt_tag g).
Proof. reflexivity. Qed.
Lemma suffix_group_ok prev g : exists x, suffix_group en prev g = Ok x /\ length x = length g.
Proof.
  assert (Hm : exists x, Ok (map rt_tag g) = Ok x /\ length x = length g) by (eexists; split; [reflexivity|apply map_length]).
  unfold suffix_group. destruct (strip_tag_prefix _); [|exact Hm]. destruct (_ || _); [exact Hm|].
  rewrite rjoin. cbn [bind fst snd]. destruct (starts_with _ _); cbn [negb]; [|exact Hm].
  destruct (length (items_between _ _ _)) as [|k] eqn:E; [exact Hm|].
  rewrite rbetween in E. pose proof (filter_length_le (fun r => overlaps r (0, 1)%Z) (rspans g)) as L.
  rewrite E, rspans_length in L. eexists. split; [reflexivity|]. rewrite app_length, !repeat_length. lia.
Qed.
Lemma suffix_go_app gs1 : forall p gs2, exists r1, length r1 = length (concat gs1) /\
  suffix_go en p (gs1 ++ gs2) = do r2 <- suffix_go en (match gs1 with [] => p | _ => Some (last gs1 []) end) gs2 ;; Ok (r1 ++ r2).
Proof.
  induction gs1 as [|g gs1 IH]; intros p gs2.
  - exists []. split; [reflexivity|]. cbn [app]. destruct (suffix_go en p gs2); reflexivity.
  - cbn [app suffix_go]. destruct (suffix_group_ok p g) as (x & -> & Lx). cbn [bind].
    destruct (IH (Some g) gs2) as (r1 & L1 & ->). exists (x ++ r1). split; [cbn [concat]; rewrite !app_length; lia|].
    replace (match gs1 with [] => Some g | _ => Some (last gs1 []) end) with (Some (last (g :: gs1) [])) by (destruct gs1; reflexivity).
    destruct (suffix_go _ _ gs2); [|reflexivity]. cbn [bind]. now rewrite app_assoc.
Qed.
Lemma suffix_go_ok gs p : exists r, suffix_go en p gs = Ok r /\ length r = length (concat gs).
Proof.
  destruct (suffix_go_app gs p []) as (r1 & L & E). rewrite app_nil_r in E. rewrite E. cbn [suffix_go bind].
  eexists. split; [reflexivity|]. now rewrite app_nil_r.
Qed.
(** only the first token is at the start of the text *)
Lemma suffix_items x g : Forall rplain (x :: g) -> length (filter (fun r => overlaps r (0, 1)%Z) (rspans (x :: g))) = 1.
Proof.
  intros Hp. unfold rspans, rpieces. rewrite <- spans_eq. cbn [map spans_from filter].
  inversion Hp as [|? ? [_ Hx] _]; subst. assert (0 < zlen (rt_text x))%Z by (destruct (rt_text x); [congruence|]; unfold zlen; cbn [length]; lia).
  unfold overlaps at 1. cbn [fst snd]. replace (0 <? 0 + zlen (rt_text x))%Z with true by (symmetry; apply Z.ltb_lt; lia).
  cbn [Z.ltb Z.compare andb length]. f_equal.
  assert (G : forall l st, (1 <= st)%Z -> filter (fun r => overlaps r (0, 1)%Z) (spans_from st l) = []).
  { induction l as [|[a b] l IH]; intros st Hst; [reflexivity|]. cbn [spans_from filter]. unfold overlaps at 1. cbn [fst snd].
    replace (st <? 1)%Z with false by (symmetry; apply Z.ltb_ge; lia). cbn [andb]. apply IH.
    pose proof (zlen_nonneg a). pose proof (zlen_nonneg b). lia. }
  rewrite G; [reflexivity|]. match goal with |- (_ <= _ + zlen ?a + zlen ?w)%Z => pose proof (zlen_nonneg w); change (0 < zlen a)%Z in H end. lia.
Qed.
Lemma suffix_text x g : rt_text x <> [] -> starts_with [46%N] (rtext (x :: g)) = starts_with (u ".") (rt_text x).
Proof.
  intros Hx. unfold rtext, rpieces. cbn [map glue]. destruct (rt_text x) as [|c s]; [congruence|]. reflexivity.
Qed.
Lemma suffix_group_gap run g : Forall rplain g -> g <> [] -> uniform None g -> Forall rplain run ->
  suffix_group en (Some run) g = Ok (suffix_tags en (first_tag run) g).
Proof.
  intros Hp Hn Hu Hr. pose proof (uniform_none g Hp Hu) as Ht.
  assert (Pt : plain (first_tag run)) by (destruct run as [|y run]; [now left|inversion Hr as [|? ? [P _] _]; exact P]).
  destruct g as [|x g]; [congruence|]. unfold suffix_group, suffix_tags, suffix_count.
  change (match run with x0 :: _ => rt_tag x0 | [] => None end) with (first_tag run). rewrite Ht.
  change (strip_tag_prefix (first_tag run)) with (value (first_tag run)).
  destruct (value (first_tag run)) as [v|]; [|reflexivity]. cbn [length repeat hd truthy orb].
  destruct (mem v en); cbn [negb andb]; [|reflexivity]. rewrite rjoin. cbn [bind fst snd].
  rewrite suffix_text by now inversion Hp as [|? ? [_ ?] _].
  destruct (starts_with (u ".") (rt_text x)); cbn [negb]; [|reflexivity].
  rewrite rbetween, suffix_items by exact Hp. now rewrite to_inside_inside.
Qed.
Lemma suffix_main pre run gap post v : Forall rplain (pre ++ run ++ gap ++ post) -> gap_after pre run gap post v ->
  exists r1 r2, suffix_extended en (pre ++ run ++ gap ++ post) =
    Ok (r1 ++ map rt_tag run ++ suffix_tags en (first_tag run) gap ++ r2) /\
    length r1 = length pre /\ length r2 = length post.
Proof.
  intros Hp Ha. unfold suffix_extended. rewrite (gap_after_groups _ _ _ _ _ Ha).
  apply Forall_app in Hp as [P1 Hp]. apply Forall_app in Hp as [P2 Hp]. apply Forall_app in Hp as [P3 P4].
  destruct Ha as (Hv & Hn & Hr & Hg & H1 & H2 & H3).
  destruct (suffix_go_app (rgroups pre) None (run :: (match gap with [] => [] | _ => [gap] end) ++ rgroups post)) as (r1 & L1 & ->).
  rewrite rgroups_concat in L1. cbn [suffix_go].
  rewrite suffix_group_tagged by (destruct run as [|y run']; [congruence|]; exact (uniform_truthy v _ y run' Hv P2 Hr eq_refl)).
  cbn [bind]. destruct gap as [|x gap].
  - cbn [app]. destruct (suffix_go_ok (rgroups post) (Some run)) as (r2 & -> & L2). cbn [bind]. rewrite rgroups_concat in L2.
    exists r1, r2. split; [|auto]. unfold suffix_tags, suffix_count. destruct (value (first_tag run)); reflexivity.
  - set (g := x :: gap) in *. cbn [app suffix_go]. rewrite suffix_group_gap by (auto; discriminate). cbn [bind].
    destruct (suffix_go_ok (rgroups post) (Some g)) as (r2 & -> & L2). cbn [bind]. rewrite rgroups_concat in L2.
    exists r1, r2. auto.
Qed.
Lemma suffix_start gap post : Forall rplain (gap ++ post) -> uniform None gap -> next_differs None post ->
  exists r2, suffix_extended en (gap ++ post) = Ok (repeat None (length gap) ++ r2) /\ length r2 = length post.
Proof.
  intros Hp Hu Hn. unfold suffix_extended. rewrite rgroups_app by (eapply hd_last; eauto). apply Forall_app in Hp as [P1 P2].
  destruct gap as [|x gap].
  - cbn [length repeat app]. destruct (suffix_go_ok (rgroups post) None) as (r & E & L). rewrite rgroups_concat in L.
    exists r. split; [exact E|exact L].
  - rewrite (rgroups_uniform None) by (auto; discriminate). cbn [app suffix_go]. rewrite suffix_group_first. cbn [bind].
    destruct (suffix_go_ok (rgroups post) (Some (x :: gap))) as (r & -> & L). rewrite rgroups_concat in L. cbn [bind].
    exists r. split; [|exact L]. now rewrite (uniform_none _ P1 Hu).
Qed.
End Suffix.

(** *** et al. *)
Section Etal.
Variable etal : str.
Variable en : list str.
(** the tag before that says whose et al. it is *)
Definition counts (t : ostr) : bool := truthy t && negb (ostreq (value t) (Some etal)).
Definition owner (before : list ostr) : ostr :=
  match find counts (rev before) with
  | Some w => if omem (value w) en then value w else None
  | None => None
  end.

Lemma find_app {A} (f : A -> bool) a b : find f (a ++ b) = match find f a with Some x => Some x | None => find f b end.
Proof. induction a as [|x a IH]; [reflexivity|]. cbn. destruct (f x); auto. Qed.
Lemma owner_skip before g : Forall (fun t => counts t = false) g -> owner (before ++ g) = owner before.
Proof.
  intros H. unfold owner. rewrite rev_app_distr, find_app. apply Forall_rev in H.
  replace (find counts (rev g)) with (@None ostr); [reflexivity|]. induction H as [|x l Hx _ IH]; [reflexivity|]. cbn. now rewrite Hx.
Qed.
Lemma owner_value before g v : g <> [] -> Forall (fun t => counts t = true) g -> Forall (fun t => value t = v) g ->
  owner (before ++ g) = if omem v en then v else None.
Proof.
  intros Hn H Hv. unfold owner. rewrite rev_app_distr, find_app. apply Forall_rev in H. apply Forall_rev in Hv.
  destruct (rev g) as [|x r] eqn:E.
  - apply (f_equal (@rev ostr)) in E. rewrite rev_involutive in E. contradiction.
  - inversion H as [|? ? Hc _]; subst. inversion Hv; subst. cbn [find]. rewrite Hc. reflexivity.
Qed.
Definition good_group (g : list ostr) : Prop := g <> [] /\ Forall plain g /\ exists v, Forall (fun t => value t = v) g.
(** what the tag after [before] becomes, up to prefixes *)
Definition etal_ok (before : list ostr) (t t' : ostr) : Prop :=
  if ostreq (value t) (Some etal) && truthy (owner before) then plain t' /\ value t' = owner before else t' = t.
Fixpoint all_etal_ok (before l l' : list ostr) : Prop :=
  match l, l' with
  | [], [] => True
  | t :: l, t' :: l' => etal_ok before t t' /\ all_etal_ok (before ++ [t]) l l'
  | _, _ => False
  end.
Lemma all_etal_app l1 : forall before l1' l2 l2', all_etal_ok before l1 l1' -> all_etal_ok (before ++ l1) l2 l2' ->
  all_etal_ok before (l1 ++ l2) (l1' ++ l2').
Proof.
  induction l1 as [|t l1 IH]; intros before [|t' l1'] l2 l2' H1 H2; try easy.
  - now rewrite app_nil_r in H2.
  - destruct H1 as [H0 H1]. split; [exact H0|]. apply IH; [exact H1|]. now rewrite <- app_assoc.
Qed.
Lemma etal_kept before t : value t <> Some etal -> etal_ok before t t.
Proof.
  intros H. unfold etal_ok. replace (ostreq (value t) (Some etal)) with false by (symmetry; now apply ostreq_false). reflexivity.
Qed.

Lemma etal_go_spec gs : ~ In etal en -> truthy (Some etal) = true -> forall acc before, Forall good_group gs ->
  plain acc -> value acc = owner before ->
  all_etal_ok before (concat gs) (etal_go etal en acc gs).
Proof.
  intros He Het. induction gs as [|g gs IH]; intros acc before Hg Pa Ha; [exact I|].
  inversion Hg as [|? ? (G1 & G2 & v & G3) Hg']; subst. cbn [concat etal_go].
  destruct g as [|t g]; [congruence|]. cbn [hd]. assert (Hv : value t = v) by now inversion G3.
  assert (Pt : plain t) by now inversion G2.
  change (strip_tag_prefix t) with (value t). rewrite Hv.
  destruct (ostreq v (Some etal)) eqn:Ev; cbn [negb orb].
  - apply ostreq_true in Ev.
    assert (Hc : Forall (fun t => counts t = false) (t :: g)).
    { eapply Forall_impl; [|exact G3]. intros a Ea. unfold counts. cbn beta in Ea. rewrite Ea, Ev.
      replace (ostreq (Some etal) (Some etal)) with true by (symmetry; now apply ostreq_true). apply andb_false_r. }
    destruct (truthy acc) eqn:Ta; cbn [negb].
    + (* mapped *)
      assert (To : truthy (owner before) = true) by (rewrite <- Ha, <- plain_truthy; assumption).
      change (acc :: repeat (to_inside_tag acc) (length (t :: g) - 1) ++ etal_go etal en acc gs)
        with ((acc :: repeat (to_inside_tag acc) (length (t :: g) - 1)) ++ etal_go etal en acc gs).
      apply all_etal_app.
      * cbn [length Nat.sub]. rewrite Nat.sub_0_r.
        assert (K : forall g b t', Forall (fun t => counts t = false) b -> Forall (fun t => value t = Some etal) g -> plain t' -> value t' = owner before ->
          all_etal_ok (before ++ b) g (repeat t' (length g)) ).
        { clear -To. induction g as [|x g IHg]; intros b t' Hb Hg Pt Ht; [exact I|]. cbn [length repeat all_etal_ok].
          inversion Hg; subst. split.
          - unfold etal_ok. replace (ostreq (value x) (Some etal)) with true by (symmetry; now apply ostreq_true).
            rewrite owner_skip by exact Hb. rewrite To. cbn [andb]. auto.
          - rewrite <- app_assoc. apply IHg; auto. apply Forall_app. split; [exact Hb|]. constructor; [|constructor].
            unfold counts. replace (ostreq (value x) (Some etal)) with true by (symmetry; now apply ostreq_true). apply andb_false_r. }
        cbn [all_etal_ok]. split.
        -- unfold etal_ok. rewrite Hv, Ev. replace (ostreq (Some etal) (Some etal)) with true by (symmetry; now apply ostreq_true).
           rewrite To. cbn [andb]. auto.
        -- apply K.
           ++ constructor; [now inversion Hc|constructor].
           ++ rewrite <- Ev. now inversion G3.
           ++ rewrite to_inside_inside by exact Pa. now apply inside_plain.
           ++ rewrite to_inside_inside by exact Pa. now rewrite inside_value.
      * apply IH; auto. now rewrite owner_skip.
    + (* nobody to give it to *)
      assert (Eo : owner before = None).
      { rewrite <- Ha. destruct Pa as [->|Pa]; [reflexivity|]. rewrite plain_truthy in Ta by now right. congruence. }
      apply all_etal_app.
      * assert (K : forall g b, Forall (fun t => counts t = false) b -> Forall (fun t => counts t = false) g ->
          all_etal_ok (before ++ b) g g).
        { clear -Eo. induction g as [|x g IHg]; intros b Hb Hg; [exact I|]. inversion Hg; subst. cbn [all_etal_ok]. split.
          - unfold etal_ok. rewrite owner_skip by exact Hb. rewrite Eo. cbn [truthy]. rewrite andb_false_r. reflexivity.
          - rewrite <- app_assoc. apply IHg; auto. apply Forall_app. auto. }
        specialize (K (t :: g) [] (Forall_nil _) Hc). now rewrite app_nil_r in K.
      * assert (Tt : truthy t = true) by (rewrite plain_truthy by exact Pt; now rewrite Hv, Ev).
        rewrite Tt, Ev. replace (mem etal en) with false by (symmetry; now apply mem_nIn).
        apply IH; auto; [now left|]. now rewrite owner_skip.
  - apply ostreq_false in Ev.
    assert (Ke : forall g b, Forall (fun t => value t = v) g -> all_etal_ok b g g).
    { clear -Ev. induction g as [|x g IHg]; intros b H; [exact I|]. inversion H; subst. split; [now apply etal_kept|now apply IHg]. }
    apply all_etal_app; [now apply Ke|].
    destruct v as [v|].
    + assert (Hc : Forall (fun t => counts t = true) (t :: g)).
      { rewrite Forall_forall in *. intros a Ia. unfold counts. pose proof (G3 a Ia) as Va. cbn beta in Va. rewrite Va.
        replace (ostreq (Some v) (Some etal)) with false by (symmetry; now apply ostreq_false). cbn [negb]. rewrite andb_true_r.
        destruct (G2 a Ia) as [->|Pb]; [discriminate|]. rewrite plain_truthy by now right. exact Pb. }
      assert (Tt : truthy t = true) by (inversion Hc as [|? ? C _]; subst; unfold counts in C; now apply andb_prop in C).
      rewrite Tt. assert (Eo : owner (before ++ t :: g) = if omem (Some v) en then Some v else None) by (apply owner_value; auto; discriminate).
      apply IH; auto.
      * destruct (mem v en); [exact Pt|now left].
      * rewrite Eo. cbn [omem]. destruct (mem v en); [exact Hv|reflexivity].
    + assert (Et : t = None) by now apply plain_value_none.
      subst t. cbn [truthy].
      apply IH; auto. rewrite owner_skip; [exact Ha|]. rewrite Forall_forall in *. intros a Ia.
      rewrite (plain_value_none a (G2 a Ia) (G3 a Ia)). reflexivity.
Qed.
End Etal.

(** *** Theorems *)

(** every token is in a block of an untagged gap and the field after it, or in the
    untagged rest *)
Lemma split_start {A} (f : A -> bool) l : exists a b, l = a ++ b /\ Forall (fun x => f x = true) a /\
  match b with x :: _ => f x = false | [] => True end.
Proof.
  induction l as [|x l (a & b & -> & H1 & H2)]; [now exists [], []|]. destruct (f x) eqn:E.
  - exists (x :: a), b. auto.
  - exists [], (x :: a ++ b). auto.
Qed.
Lemma split_end {A} (f : A -> bool) l : exists a b, l = a ++ b /\ Forall (fun x => f x = true) b /\
  match rev a with x :: _ => f x = false | [] => True end.
Proof.
  destruct (split_start f (rev l)) as (a & b & E & H1 & H2). exists (rev b), (rev a). split; [|split].
  - rewrite <- rev_app_distr, <- E. symmetry. apply rev_involutive.
  - now apply Forall_rev.
  - now rewrite rev_involutive.
Qed.
Definition has_value (v : ostr) (x : rtok) : bool := ostreq (rvalue x) v.
Lemma start_of v l : exists a b, l = a ++ b /\ uniform v a /\ next_differs v b.
Proof.
  destruct (split_start (has_value v) l) as (a & b & E & H1 & H2). exists a, b. split; [exact E|]. split.
  - eapply Forall_impl; [|exact H1]. intros x. apply ostreq_true.
  - destruct b; [exact I|]. now apply ostreq_false in H2.
Qed.
Lemma end_of v l : exists a b, l = a ++ b /\ uniform v b /\ last_differs a v.
Proof.
  destruct (split_end (has_value v) l) as (a & b & E & H1 & H2). exists a, b. split; [exact E|]. split.
  - eapply Forall_impl; [|exact H1]. intros x. apply ostreq_true.
  - unfold last_differs. destruct (rev a); [exact I|]. now apply ostreq_false in H2.
Qed.
Lemma last_differs_app a b v : b <> [] -> last_differs b v -> last_differs (a ++ b) v.
Proof.
  intros Hn. unfold last_differs. rewrite rev_app_distr. destruct (rev b) eqn:E; [|auto].
  apply (f_equal (@rev rtok)) in E. rewrite rev_involutive in E. contradiction.
Qed.
Lemma uniform_last b v w : b <> [] -> uniform w b -> w <> v -> last_differs b v.
Proof.
  intros Hn Hu Hw. apply Forall_rev in Hu. unfold last_differs. destruct (rev b); [exact I|]. inversion Hu; subst. exact Hw.
Qed.
Lemma block_before l i : i < length l ->
  (exists pre gap run post v, l = pre ++ gap ++ run ++ post /\ gap_before pre gap run post v /\
     length pre <= i < length pre + length gap + length run) \/
  (exists pre gap, l = pre ++ gap /\ uniform None gap /\ last_differs pre None /\ length pre <= i).
Proof.
  intros Hi. destruct (nth_error l i) as [x|] eqn:Ex; [|apply nth_error_None in Ex; lia].
  apply nth_error_split in Ex as (l1 & l2 & -> & Hl). destruct (rvalue x) as [v|] eqn:Ev.
  - left. destruct (end_of (Some v) l1) as (a & r1 & -> & U1 & D1).
    destruct (start_of (Some v) l2) as (r2 & post & -> & U2 & D2).
    destruct (end_of None a) as (pre & gap & -> & U3 & D3).
    exists pre, gap, (r1 ++ x :: r2), post, (Some v). rewrite !app_length in *. cbn [length].
    split; [now rewrite <- !app_assoc|]. split; [|rewrite ?app_length in *; cbn [length] in *; lia].
    repeat split; auto; try discriminate; [destruct r1; discriminate|].
    apply Forall_app. split; [exact U1|]. constructor; [exact Ev|exact U2].
  - destruct (end_of None l1) as (pre & g1 & -> & U1 & D1). destruct (start_of None l2) as (g2 & rest & -> & U2 & D2).
    assert (U : uniform None (g1 ++ x :: g2)) by (apply Forall_app; split; [exact U1|constructor; [exact Ev|exact U2]]).
    rewrite !app_length in *. destruct rest as [|y rest].
    + right. exists pre, (g1 ++ x :: g2). rewrite app_nil_r. split; [now rewrite <- !app_assoc|]. repeat split; auto. lia.
    + left. cbn in D2. destruct (rvalue y) as [v|] eqn:Ey; [|congruence].
      destruct (start_of (Some v) rest) as (r & post & -> & U3 & D3).
      exists pre, (g1 ++ x :: g2), (y :: r), post, (Some v). split.
      { rewrite <- !app_assoc. cbn [app]. rewrite <- ?app_assoc. reflexivity. }
      split; [|rewrite ?app_length in *; cbn [length] in *; lia].
      assert (Hn : g1 ++ x :: g2 <> []) by (destruct g1; discriminate).
      repeat split; auto; try discriminate; [constructor; [exact Ey|exact U3]|].
      apply last_differs_app; [exact Hn|]. eapply uniform_last; eauto; discriminate.
Qed.
Lemma block_after l i : i < length l ->
  (exists pre run gap post v, l = pre ++ run ++ gap ++ post /\ gap_after pre run gap post v /\
     length pre <= i < length pre + length run + length gap) \/
  (exists gap post, l = gap ++ post /\ uniform None gap /\ next_differs None post /\ i < length gap).
Proof.
  intros Hi. destruct (nth_error l i) as [x|] eqn:Ex; [|apply nth_error_None in Ex; lia].
  apply nth_error_split in Ex as (l1 & l2 & -> & Hl). destruct (rvalue x) as [v|] eqn:Ev.
  - left. destruct (end_of (Some v) l1) as (pre & r1 & -> & U1 & D1).
    destruct (start_of (Some v) l2) as (r2 & a & -> & U2 & D2).
    destruct (start_of None a) as (gap & post & -> & U3 & D3).
    exists pre, (r1 ++ x :: r2), gap, post, (Some v). rewrite !app_length in *. cbn [length].
    split; [rewrite <- !app_assoc; cbn [app]; now rewrite <- ?app_assoc|]. split; [|rewrite ?app_length in *; cbn [length] in *; lia].
    repeat split; auto; try discriminate; [destruct r1; discriminate|].
    apply Forall_app. split; [exact U1|]. constructor; [exact Ev|exact U2].
  - destruct (end_of None l1) as (rest & g1 & -> & U1 & D1). destruct (start_of None l2) as (g2 & post & -> & U2 & D2).
    assert (U : uniform None (g1 ++ x :: g2)) by (apply Forall_app; split; [exact U1|constructor; [exact Ev|exact U2]]).
    rewrite !app_length in *. destruct (rev rest) as [|y s] eqn:Er.
    + right. apply (f_equal (@rev rtok)) in Er. rewrite rev_involutive in Er. cbn in Er. subst rest.
      exists (g1 ++ x :: g2), post. split; [now rewrite <- !app_assoc|]. repeat split; auto. rewrite app_length. cbn [length] in *. lia.
    + left. assert (rest = rev s ++ [y]) as -> by (rewrite <- (rev_involutive rest), Er; reflexivity).
      unfold last_differs in D1. rewrite Er in D1. destruct (rvalue y) as [v|] eqn:Ey; [|congruence].
      destruct (end_of (Some v) (rev s)) as (pre & r & E & U3 & D3). rewrite E in *. clear E Er.
      exists pre, (r ++ [y]), (g1 ++ x :: g2), post, (Some v). rewrite !app_length in *. cbn [length] in *. split.
      { rewrite <- !app_assoc. cbn [app]. reflexivity. }
      split; [|lia].
      repeat split; auto; try discriminate; [destruct r; discriminate| |].
      * apply Forall_app. split; [exact U3|]. constructor; [exact Ey|constructor].
      * destruct g1 as [|z g1]; cbn; [congruence|]. inversion U1; subst. congruence.
Qed.

Section Theorems.
Variable search : str -> str -> option Z.
Variable regexes : list (str * str).

(** the fields whose prefixes are looked for *)
Definition prefix_fields (en : option (list str)) : list str :=
  match en with Some e => e | None => map fst regexes end.
Variable en : option (list str).
Notation fields := (prefix_fields en).
Notation output := (prefix_extended search regexes en).

(** It works if there is a regular expression for every such field. *)
Theorem C24_prefix_total l : (forall f, In f fields -> dict_get f regexes <> None) -> exists r, output l = Ok r.
Proof. intros H. apply prefix_total. exact H. Qed.
(** The untagged tokens before a field and the field itself. *)
Theorem C24_prefix pre gap run post v r : Forall rplain (pre ++ gap ++ run ++ post) -> gap_before pre gap run post v ->
  output (pre ++ gap ++ run ++ post) = Ok r ->
  exists r1 r2, r = r1 ++ prefix_tags search regexes fields gap (first_tag run) ++ prefixed_run search regexes fields gap run ++ r2 /\
    length r1 = length pre /\ length r2 = length post.
Proof. intros Hp Hb H. exact (prefix_main search regexes fields pre gap run post v r Hp Hb H). Qed.
(** Untagged tokens at the end. *)
Theorem C24_prefix_rest pre gap r : Forall rplain (pre ++ gap) -> uniform None gap -> last_differs pre None ->
  output (pre ++ gap) = Ok r -> exists r1, r = r1 ++ repeat None (length gap) /\ length r1 = length pre.
Proof. intros Hp Hu Hl H. exact (prefix_rest search regexes fields pre gap r Hp Hu Hl H). Qed.
Theorem C24_prefix_length l r : Forall rplain l -> output l = Ok r -> length r = length l.
Proof.
  intros Hp H. apply prefix_go_length in H; [|apply groups_plain; now rewrite rgroups_concat]. now rewrite rgroups_concat in H.
Qed.

Lemma nth_app_mid {A} (a b c : list A) i : length a <= i < length a + length b -> nth_error (a ++ b ++ c) i = nth_error b (i - length a).
Proof. intros H. rewrite nth_error_app2, nth_error_app1 by lia. reflexivity. Qed.
Lemma prefix_count_le gap t : prefix_count search regexes fields gap t <= length gap.
Proof.
  unfold prefix_count. destruct (prefix_start _ _ _ _ _) as [st|]; [|lia]. rewrite <- (rspans_length gap). apply filter_length_le.
Qed.
Lemma prefix_tags_length gap t : length (prefix_tags search regexes fields gap t) = length gap.
Proof.
  unfold prefix_tags. pose proof (prefix_count_le gap t). destruct (prefix_count _ _ _ gap t) as [|k]; [apply repeat_length|].
  rewrite app_length, repeat_length. cbn [length]. rewrite repeat_length. lia.
Qed.
Lemma prefixed_run_length gap run : length (prefixed_run search regexes fields gap run) = length run.
Proof.
  unfold prefixed_run. destruct (prefix_count _ _ _ gap _) as [|k], run; cbn [map length]; now rewrite ?map_length.
Qed.
Lemma nth_repeat_some {A} (x y : A) n i : nth_error (repeat x n) i = Some y -> y = x.
Proof. intros H. apply nth_error_In in H. now apply repeat_spec in H. Qed.
(** tags of the gap: none before position [n - k], the field's value from there on *)
Lemma prefix_tags_nth gap t i : plain t -> t <> None -> i < length gap ->
  exists t', nth_error (prefix_tags search regexes fields gap t) i = Some t' /\
    (if i <? length gap - prefix_count search regexes fields gap t then t' = None else value t' = value t).
Proof.
  intros Pt Ht Hi. destruct (nth_error (prefix_tags search regexes fields gap t) i) as [t'|] eqn:E.
  2:{ apply nth_error_None in E. rewrite prefix_tags_length in E. lia. }
  exists t'. split; [reflexivity|]. unfold prefix_tags in E. pose proof (prefix_count_le gap t).
  destruct (prefix_count _ _ _ gap t) as [|k].
  - rewrite Nat.sub_0_r. replace (i <? length gap) with true by (symmetry; now apply Nat.ltb_lt).
    now apply nth_repeat_some in E.
  - destruct (Nat.ltb_spec i (length gap - S k)).
    + rewrite nth_error_app1 in E by now rewrite repeat_length. now apply nth_repeat_some in E.
    + rewrite nth_error_app2, repeat_length in E by now rewrite repeat_length.
      destruct (i - (length gap - S k)) as [|m]; [now injection E as <-|]. cbn [nth_error] in E.
      apply nth_repeat_some in E. subst t'. now apply inside_value.
Qed.
Lemma prefix_count_enabled gap t : prefix_count search regexes fields gap t <> 0 -> exists f, value t = Some f /\ In f fields.
Proof.
  unfold prefix_count, prefix_start. destruct (value t) as [f|]; [|congruence]. destruct (mem f fields) eqn:M; [|congruence].
  intros _. exists f. split; [reflexivity|]. now apply mem_In.
Qed.
(** Every tagged token keeps its value.  An untagged token stays untagged or gets the
    value of an enabled field: that of the first tagged token after it, and all tokens
    in between get it too. *)
Theorem C24_prefix_values l r i x t : Forall rplain l -> output l = Ok r ->
  nth_error l i = Some x -> nth_error r i = Some t ->
  (rvalue x <> None -> value t = rvalue x) /\
  (rvalue x = None -> t <> None -> exists j y f,
     i < j /\ nth_error l j = Some y /\ rvalue y = Some f /\ value t = Some f /\ In f fields /\
     forall k z t', i <= k < j -> nth_error l k = Some z -> nth_error r k = Some t' -> rvalue z = None /\ value t' = Some f).
Proof.
  intros Hp H Hx Ht. assert (Hi : i < length l) by (apply nth_error_Some; congruence).
  destruct (block_before l i Hi) as [(pre & gap & run & post & v & -> & Hb & Hr)|(pre & gap & -> & Hu & Hl & Hr)].
  - destruct (C24_prefix pre gap run post v r Hp Hb H) as (r1 & r2 & -> & L1 & L2).
    apply Forall_app in Hp as [P1 Hp]. apply Forall_app in Hp as [P2 Hp]. apply Forall_app in Hp as [P3 P4].
    destruct Hb as (Hv & Hn & Hg & Hu & B1 & B2 & B3).
    set (T := prefix_tags search regexes fields gap (first_tag run)) in *.
    set (Q := prefixed_run search regexes fields gap run) in *.
    assert (LT : length T = length gap) by apply prefix_tags_length.
    assert (LQ : length Q = length run) by apply prefixed_run_length.
    assert (Pt : plain (first_tag run) /\ value (first_tag run) = v /\ first_tag run <> None).
    { destruct run as [|y run]; [congruence|]. inversion P3 as [|? ? [P _] _]; subst. inversion Hu; subst. cbn.
      split; [exact P|]. split; [reflexivity|]. intros E. unfold rvalue in Hv. now rewrite E in Hv. }
    destruct Pt as (Pt & Vt & Nt).
    destruct (Nat.lt_ge_cases i (length pre + length gap)) as [Hc|Hc].
    + (* in the gap *)
      rewrite nth_app_mid in Hx by lia.
      assert (Ex : rvalue x = None) by (apply nth_error_In in Hx; unfold uniform in Hg; rewrite Forall_forall in Hg; now apply Hg).
      split; [congruence|]. intros _ Hne. rewrite nth_app_mid in Ht by lia.
      destruct (prefix_tags_nth gap (first_tag run) (i - length pre) Pt Nt ltac:(lia)) as (t0 & E0 & E1). fold T in E0.
      rewrite L1, E0 in Ht. injection Ht as ->.
      destruct (Nat.ltb_spec (i - length pre) (length gap - prefix_count search regexes fields gap (first_tag run))) as [Hlt|Hge]; [congruence|].
      destruct (prefix_count_enabled gap (first_tag run)) as (f & Ef & If); [lia|].
      assert (v = Some f) as -> by congruence.
      destruct run as [|y run]; [congruence|]. exists (length pre + length gap), y, f. split; [lia|]. split.
      { rewrite app_assoc, nth_error_app2 by (rewrite app_length; lia). rewrite app_length, Nat.sub_diag. reflexivity. }
      split; [now inversion Hu|]. split; [congruence|]. split; [exact If|].
      intros k z t' Hk Hz Ht'. rewrite nth_app_mid in Hz by lia. split.
      { apply nth_error_In in Hz. unfold uniform in Hg. rewrite Forall_forall in Hg. now apply Hg. }
      rewrite nth_app_mid in Ht' by lia.
      destruct (prefix_tags_nth gap (first_tag (y :: run)) (k - length pre) Pt Nt ltac:(lia)) as (t1 & E2 & E3). fold T in E2.
      rewrite L1, E2 in Ht'. injection Ht' as ->.
      destruct (Nat.ltb_spec (k - length pre) (length gap - prefix_count search regexes fields gap (first_tag (y :: run)))); [lia|congruence].
    + (* in the field *)
      rewrite app_assoc, nth_app_mid in Hx by (rewrite app_length; lia). rewrite app_length in Hx.
      rewrite app_assoc, nth_app_mid in Ht by (rewrite app_length; lia). rewrite app_length, L1, LT in Ht.
      assert (Ex : rvalue x = v) by (apply nth_error_In in Hx; unfold uniform in Hu; rewrite Forall_forall in Hu; now apply Hu).
      split; [|intros; congruence]. intros _. unfold Q, prefixed_run in Ht.
      set (m := i - (length pre + length gap)) in *.
      assert (D : nth_error (map rt_tag run) m = Some (rt_tag x)) by (rewrite nth_error_map, Hx; reflexivity).
      destruct (prefix_count _ _ _ gap _) as [|k]; [rewrite D in Ht; now injection Ht as <-|].
      destruct run as [|y run]; [congruence|]. destruct m as [|m].
      * injection Hx as ->. injection Ht as <-. inversion P3 as [|? ? [P _] _]; subst. now apply inside_value.
      * cbn [map nth_error] in *. rewrite D in Ht. now injection Ht as <-.
  - destruct (C24_prefix_rest pre gap r Hp Hu Hl H) as (r1 & -> & L1).
    rewrite nth_error_app2 in Hx by lia. rewrite nth_error_app2 in Ht by lia. apply nth_repeat_some in Ht. subst t.
    assert (Ex : rvalue x = None) by (apply nth_error_In in Hx; unfold uniform in Hu; rewrite Forall_forall in Hu; now apply Hu).
    split; [congruence|]. congruence.
Qed.

(** The tokens of the gap that are tagged are those that end after the start of the
    match. *)
Fixpoint ends_sorted (rs : list irange) : Prop :=
  match rs with r :: rs' => Forall (fun r' => (snd r <= snd r')%Z) rs' /\ ends_sorted rs' | [] => True end.
Lemma ends_filter rs st i r : ends_sorted rs -> nth_error rs i = Some r ->
  ((st < snd r)%Z <-> length rs - length (filter (fun r : irange => (st <? snd r)%Z) rs) <= i).
Proof.
  revert i. induction rs as [|a rs IH]; intros i Hs Hr; [destruct i; discriminate|]. destruct Hs as [H1 H2].
  cbn [filter length]. destruct (Z.ltb_spec st (snd a)) as [Hl|Hl].
  - assert (E : filter (fun r : irange => (st <? snd r)%Z) rs = rs).
    { clear -H1 Hl. induction rs as [|b rs IH]; [reflexivity|]. inversion H1; subst. cbn [filter].
      replace (st <? snd b)%Z with true by (symmetry; apply Z.ltb_lt; lia). f_equal. now apply IH. }
    rewrite E. cbn [length]. split; [lia|]. intros _. destruct i as [|i]; [now injection Hr as <-|].
    cbn in Hr. apply nth_error_In in Hr. rewrite Forall_forall in H1. apply H1 in Hr. lia.
  - pose proof (filter_length_le (fun r : irange => (st <? snd r)%Z) rs). destruct i as [|i].
    + injection Hr as <-. lia.
    + cbn in Hr. rewrite (IH i H2 Hr). lia.
Qed.
Lemma spans_ends l : ends_sorted (spans l).
Proof.
  rewrite <- spans_eq. generalize 0%Z as st.
  assert (G : forall l st, Forall (fun r : irange => (st <= snd r)%Z) (spans_from st l)).
  { clear l. induction l as [|[x y] l IH]; intros st; [constructor|]. cbn [spans_from].
    pose proof (zlen_nonneg x). pose proof (zlen_nonneg y). constructor; [cbn; lia|].
    eapply Forall_impl; [|apply IH]. cbn. intros r H1. lia. }
  induction l as [|[x y] l IH]; intros st; [exact I|]. cbn [spans_from ends_sorted snd]. split; [|apply IH].
  eapply Forall_impl; [|apply G]. cbn. intros r H. pose proof (zlen_nonneg y). lia.
Qed.
Theorem C24_prefix_tokens gap t i rg : plain t -> t <> None -> nth_error (rspans gap) i = Some rg ->
  exists t', nth_error (prefix_tags search regexes fields gap t) i = Some t' /\
    (t' <> None <-> exists st, prefix_start search regexes fields (value t) (rtext gap) = Some st /\ (st < snd rg)%Z).
Proof.
  intros Pt Ht Hr. assert (Hi : i < length gap) by (rewrite <- rspans_length; apply nth_error_Some; congruence).
  destruct (prefix_tags_nth gap t i Pt Ht Hi) as (t' & E & H). exists t'. split; [exact E|].
  unfold prefix_count in H. destruct (prefix_start _ _ _ _ _) as [st|].
  - rewrite <- (rspans_length gap) in H.
    pose proof (ends_filter (rspans gap) st i rg (spans_ends _) Hr) as K.
    destruct (Nat.ltb_spec i (length (rspans gap) - length (filter (fun r : irange => (st <? snd r)%Z) (rspans gap)))) as [Hl|Hl].
    + subst t'. split; [congruence|]. intros (st' & [= <-] & S). apply K in S. lia.
    + split; [|intros _ ->]. { intros _. exists st. split; [reflexivity|]. now apply K. }
      destruct Pt as [Pt|Pt]; [congruence|]. change (value None) with (@None str) in H. now rewrite <- H in Pt.
  - rewrite Nat.sub_0_r in H. replace (i <? length gap) with true in H by (symmetry; now apply Nat.ltb_lt). subst t'.
    split; [congruence|]. intros (st & [=] & _).
Qed.
End Theorems.

(** A full stop after an enabled field is tagged; nothing else changes. *)
Theorem C24_suffix en pre run gap post v : Forall rplain (pre ++ run ++ gap ++ post) -> gap_after pre run gap post v ->
  exists r1 r2, suffix_extended en (pre ++ run ++ gap ++ post) =
    Ok (r1 ++ map rt_tag run ++ suffix_tags en (first_tag run) gap ++ r2) /\
    length r1 = length pre /\ length r2 = length post.
Proof. apply suffix_main. Qed.
Theorem C24_suffix_total en l : exists r, suffix_extended en l = Ok r /\ length r = length l.
Proof.
  destruct (suffix_go_ok en (rgroups l) None) as (r & E & L). rewrite rgroups_concat in L. exists r. split; assumption.
Qed.
Theorem C24_suffix_values en l r i x t : Forall rplain l -> suffix_extended en l = Ok r ->
  nth_error l i = Some x -> nth_error r i = Some t ->
  (rvalue x <> None -> t = rt_tag x) /\
  (rvalue x = None -> (t <> None <-> exists j y f, i = S j /\ nth_error l j = Some y /\ rvalue y = Some f /\ In f en /\
      starts_with (u ".") (rt_text x) = true) /\
    (t <> None -> exists j y, i = S j /\ nth_error l j = Some y /\ value t = rvalue y)).
Proof.
  intros Hp H Hx Ht. assert (Hi : i < length l) by (apply nth_error_Some; congruence).
  destruct (block_after l i Hi) as [(pre & run & gap & post & v & -> & Ha & Hr)|(gap & post & -> & Hu & Hn & Hr)].
  - destruct (C24_suffix en pre run gap post v Hp Ha) as (r1 & r2 & H' & L1 & L2). rewrite H in H'. injection H' as ->.
    apply Forall_app in Hp as [P1 Hp]. apply Forall_app in Hp as [P2 Hp]. apply Forall_app in Hp as [P3 P4].
    destruct Ha as (Hv & Hn & Hu & Hg & B1 & B2 & B3).
    assert (LT : length (suffix_tags en (first_tag run) gap) = length gap).
    { unfold suffix_tags. rewrite app_length, !repeat_length. assert (suffix_count en (value (first_tag run)) gap <= length gap); [|lia].
      unfold suffix_count. destruct (value (first_tag run)), gap; cbn [length]; try lia. destruct (_ && _); lia. }
    destruct (Nat.lt_ge_cases i (length pre + length run)) as [Hc|Hc].
    + rewrite nth_app_mid in Hx by lia. rewrite nth_app_mid in Ht by (rewrite map_length; lia).
      assert (Ex : rvalue x = v) by (apply nth_error_In in Hx; unfold uniform in Hu; rewrite Forall_forall in Hu; now apply Hu).
      rewrite L1, nth_error_map, Hx in Ht. injection Ht as <-. split; [auto|]. congruence.
    + assert (Hx' := Hx). rewrite app_assoc, nth_app_mid in Hx by (rewrite app_length; lia). rewrite app_length in Hx.
      rewrite app_assoc, nth_app_mid in Ht by (rewrite app_length, map_length; lia). rewrite app_length, map_length, L1 in Ht.
      assert (Ex : rvalue x = None) by (apply nth_error_In in Hx; unfold uniform in Hg; rewrite Forall_forall in Hg; now apply Hg).
      split; [congruence|]. intros _.
      assert (Pt : plain (first_tag run) /\ value (first_tag run) = v).
      { destruct run as [|y run]; [congruence|]. inversion P2 as [|? ? [P _] _]; subst. inversion Hu; subst. cbn. auto. }
      destruct Pt as [Pt Vt]. destruct v as [v|]; [|congruence].
      assert (Lr : 0 < length run) by (destruct run; [congruence|cbn; lia]).
      assert (Eprev : forall j y, i = S j -> nth_error (pre ++ run ++ gap ++ post) j = Some y ->
        (i = length pre + length run /\ rvalue y = Some v) \/ (i <> length pre + length run /\ rvalue y = None)).
      { intros j y -> Hy. destruct (Nat.eq_dec (S j) (length pre + length run)) as [E|E].
        - left. split; [exact E|]. rewrite nth_app_mid in Hy by lia. apply nth_error_In in Hy.
          unfold uniform in Hu. rewrite Forall_forall in Hu. now apply Hu.
        - right. split; [exact E|]. rewrite app_assoc, nth_app_mid in Hy by (rewrite app_length; lia). apply nth_error_In in Hy.
          unfold uniform in Hg. rewrite Forall_forall in Hg. now apply Hg. }
      assert (Hlast : exists j y, i = length pre + length run -> i = S j /\ nth_error (pre ++ run ++ gap ++ post) j = Some y /\ rvalue y = Some v).
      { destruct (nth_error (pre ++ run ++ gap ++ post) (length pre + length run - 1)) as [y|] eqn:Ey.
        - exists (length pre + length run - 1), y. intros ->. split; [lia|]. split; [exact Ey|].
          rewrite nth_app_mid in Ey by lia. apply nth_error_In in Ey. unfold uniform in Hu. rewrite Forall_forall in Hu. now apply Hu.
        - apply nth_error_None in Ey. rewrite !app_length in Ey. lia. }
      destruct Hlast as (j0 & y0 & Hlast).
      destruct gap as [|z gap]; [cbn [length] in Hr; lia|].
      remember (i - (length pre + length run)) as m eqn:Em.
      unfold suffix_tags, suffix_count in Ht. rewrite Vt in Ht.
      destruct m as [|m].
      * assert (Ei : i = length pre + length run) by lia. destruct (Hlast Ei) as (Ej & Ey & Vy). cbn in Hx. injection Hx as ->.
        destruct (mem v en) eqn:M; cbn [andb] in Ht.
        -- destruct (starts_with (u ".") (rt_text x)) eqn:Sx.
           ++ cbn in Ht. injection Ht as <-.
              assert (Vi : value (inside (first_tag run)) = Some v) by now rewrite inside_value.
              assert (Ni : inside (first_tag run) <> None) by (intros E; now rewrite E in Vi).
              split; [split; [|auto]|].
              ** intros _. exists j0, y0, v. repeat split; auto. now apply mem_In.
              ** intros _. exists j0, y0. repeat split; auto. congruence.
           ++ cbn in Ht. injection Ht as <-. split; [|congruence]. split; [congruence|]. intros (j & y & f & _ & _ & _ & _ & ?). congruence.
        -- cbn in Ht. injection Ht as <-. split; [|congruence]. split; [congruence|].
           intros (j & y & f & E1 & E2 & E3 & E4 & _). destruct (Eprev j y E1 E2) as [[_ E5]|[E5 _]]; [|congruence].
           exfalso. assert (f = v) by congruence. subst f. apply mem_In in E4. congruence.
      * assert (En : t = None).
        { set (n := if mem v en && starts_with (u ".") (rt_text z) then 1 else 0) in *.
          assert (n <= 1) by (unfold n; destruct (_ && _); lia).
          rewrite nth_error_app2 in Ht by (rewrite repeat_length; lia). now apply nth_repeat_some in Ht. }
        subst t. split; [|congruence]. split; [congruence|]. intros (j & y & f & E1 & E2 & E3 & _).
        destruct (Eprev j y E1 E2) as [[E5 _]|[_ E5]]; [lia|congruence].
  - destruct (suffix_start en gap post Hp Hu Hn) as (r2 & H' & L2). rewrite H in H'. injection H' as ->.
    rewrite nth_error_app1 in Hx by lia. rewrite nth_error_app1 in Ht by (rewrite repeat_length; lia). apply nth_repeat_some in Ht. subst t.
    assert (Ex : rvalue x = None) by (apply nth_error_In in Hx; unfold uniform in Hu; rewrite Forall_forall in Hu; now apply Hu).
    split; [congruence|]. intros _. split; [|congruence]. split; [congruence|].
    intros (j & y & f & -> & Hy & Vy & _). rewrite nth_error_app1 in Hy by lia. apply nth_error_In in Hy.
    unfold uniform in Hu. rewrite Forall_forall in Hu. apply Hu in Hy. congruence.
Qed.

(** Et al. gets the value of the nearest name before it, if that is the last tagged
    text before it that is not et al. and is enabled; everything else is unchanged. *)
Lemma all_etal_nth etal en l : forall before l', all_etal_ok etal en before l l' -> length l' = length l /\
  forall i t, nth_error l i = Some t -> exists t', nth_error l' i = Some t' /\ etal_ok etal en (before ++ firstn i l) t t'.
Proof.
  induction l as [|x l IH]; intros before [|x' l'] H; try easy.
  - split; [reflexivity|]. intros [|i]; discriminate.
  - destruct H as [H0 H]. destruct (IH _ _ H) as [L N]. split; [cbn; lia|]. intros [|i] t Ht.
    + injection Ht as <-. exists x'. split; [reflexivity|]. cbn [firstn]. now rewrite app_nil_r.
    + destruct (N i t Ht) as (t' & E1 & E2). exists t'. split; [exact E1|]. now rewrite <- app_assoc in E2.
Qed.
Theorem C24_etal etal en l i t : Forall plain l -> etal <> [] -> ~ In etal en -> nth_error l i = Some t ->
  length (etal_mapped etal en l) = length l /\
  exists t', nth_error (etal_mapped etal en l) i = Some t' /\
    if ostreq (value t) (Some etal) && truthy (owner etal en (firstn i l)) then value t' = owner etal en (firstn i l) else t' = t.
Proof.
  intros Hp He Hn Ht.
  assert (A : all_etal_ok etal en [] l (etal_mapped etal en l)).
  { unfold etal_mapped. rewrite <- (group_by_concat same_value l) at 1.
    apply etal_go_spec; auto; [destruct etal; [congruence|reflexivity]| |now left].
    eapply Forall_impl; [|apply groups_good; exact Hp]. intros g (G1 & G2 & G3). split; [exact G1|]. split; [exact G2|]. eauto. }
  destruct (all_etal_nth _ _ _ _ _ A) as [L N]. split; [exact L|]. destruct (N i t Ht) as (t' & E1 & E2). exists t'. split; [exact E1|].
  unfold etal_ok in E2. cbn [app] in E2. destruct (_ && _); [apply E2|exact E2].
Qed.

(* ---------------------------------------------------------------- *)
(** ** Examples *)
Definition ex_search (rx text : str) : option Z := (* position of the first d *)
  (fix go (i : Z) (s : str) := match s with [] => None | c :: s' => if N.eqb c 100 then Some i else go (i + 1)%Z s' end) 0%Z text.
Definition ex_tok (t : ostr) (s : string) : rtok := (t, u s, Some (u " ")).
Definition ex_l : list rtok :=
  [ex_tok (Some (u "b-year")) "2001"; ex_tok None ","; ex_tok None "doi"; ex_tok None ":"; ex_tok (Some (u "b-id")) "10."; ex_tok (Some (u "i-id")) "12"; ex_tok None "."].
Example C24_ex_prefix : prefix_extended ex_search [(u "id", u "d")] None ex_l =
  Ok [Some (u "b-year"); None; Some (u "b-id"); Some (u "i-id"); Some (u "i-id"); Some (u "i-id"); None].
Proof. reflexivity. Qed.
Example C24_ex_error : prefix_extended ex_search [] (Some [u "id"]) ex_l = Err KeyError.
Proof. reflexivity. Qed.
Example C24_ex_hyp : Forall rplain ex_l /\
  gap_before [ex_tok (Some (u "b-year")) "2001"] [ex_tok None ","; ex_tok None "doi"; ex_tok None ":"]
    [ex_tok (Some (u "b-id")) "10."; ex_tok (Some (u "i-id")) "12"] [ex_tok None "."] (Some (u "id")) /\
  gap_after [ex_tok (Some (u "b-year")) "2001"; ex_tok None ","; ex_tok None "doi"; ex_tok None ":"]
    [ex_tok (Some (u "b-id")) "10."; ex_tok (Some (u "i-id")) "12"] [ex_tok None "."] [] (Some (u "id")).
Proof.
  split; [|split].
  - repeat apply Forall_cons; try apply Forall_nil; (split; [first [now left | now right]|discriminate]).
  - repeat split; try discriminate; repeat apply Forall_cons; try apply Forall_nil; reflexivity.
  - repeat split; try discriminate; repeat apply Forall_cons; try apply Forall_nil; reflexivity.
Qed.
Example C24_ex_suffix : suffix_extended [u "id"] ex_l =
  Ok [Some (u "b-year"); None; None; None; Some (u "b-id"); Some (u "i-id"); Some (u "i-id")].
Proof. reflexivity. Qed.
Example C24_ex_etal : etal_mapped (u "etal") [u "author"]
  [Some (u "b-author"); Some (u "i-author"); None; Some (u "b-etal"); Some (u "i-etal"); Some (u "b-title"); Some (u "b-etal")] =
  [Some (u "b-author"); Some (u "i-author"); None; Some (u "b-author"); Some (u "i-author"); Some (u "b-title"); Some (u "b-etal")].
Proof. reflexivity. Qed.
(** Without the hypothesis on the texts: an empty token at the end of the gap is not
    counted, so that the tag starts one token too late. *)
Theorem C24_empty_text_refuted : exists l,
  prefix_extended ex_search [(u "id", u "d")] None l = Ok [None; Some (u "b-id"); Some (u "i-id")] /\
  map rt_text l = [u "doi"; u ""; u "10"].
Proof. exists [ex_tok None "doi"; ex_tok None ""; ex_tok (Some (u "b-id")) "10"]. split; reflexivity. Qed.

Print Assumptions C25_partition.
Print Assumptions C25_unique.
Print Assumptions C24_prefix.
Print Assumptions C24_prefix_rest.
Print Assumptions C24_prefix_total.
Print Assumptions C24_prefix_length.
Print Assumptions C24_prefix_values.
Print Assumptions C24_prefix_tokens.
Print Assumptions C24_suffix.
Print Assumptions C24_suffix_total.
Print Assumptions C24_suffix_values.
Print Assumptions C24_etal.
Print Assumptions C24_empty_text_refuted.
