(** C86: the configuration of the simple matcher per tag. *)
From Verif Require Import Base ModelFuzzyMatch ModelTarget ModelMapping ModelSimpleMatch ModelTagConfigs PropTarget PropMapping.
Open Scope list_scope.
Open Scope nat_scope.

Section Spec.
Variable sp lb : N -> bool.
Variable lower : str -> str.
Variable compiles : str -> bool.
Variable parse_int : str -> option Z.

(** ** Specification *)
(** the value given last, over all sections in order *)
Definition given_last (m : mapping) (key : str) (v : ostr) : Prop :=
  match v with
  | Some x => exists p q, flat_map snd m = p ++ (key, x) :: q /\ ~ In key (map fst q)
  | None => ~ In key (map fst (flat_map snd m))
  end.
(** a field has an option of its own name, without a dot *)
Definition field_of (m : mapping) (f : str) : Prop := In f (map fst (flat_map snd m)) /\ ~ In 46%N f.
(** surrounding quotes are left out *)
Inductive unquotes : str -> str -> Prop :=
| U_quoted x : unquotes (34%N :: x ++ [34%N]) x
| U_plain r : (forall x, r <> 34%N :: x ++ [34%N]) -> unquotes r r.
Definition means (s : str) (b : bool) : Prop :=
  if b then In (lower s) [u "y"; u "yes"; u "t"; u "true"; u "on"; u "1"]
  else In (lower s) [u "n"; u "no"; u "f"; u "false"; u "off"; u "0"].
Definition switch (v : ostr) (b : bool) : Prop := match v with Some s => means s b | None => b = true end.
Definition regex_of (v r : ostr) : Prop :=
  match v with
  | None => r = None
  | Some [] => r = Some []
  | Some s => exists r', unquotes s r' /\ compiles r' = true /\ r = Some r'
  end.
Definition spellings_of (v : ostr) (l : list (str * list str)) : Prop :=
  match v with
  | None | Some [] => l = []
  | Some s => parse_alternative_spellings sp lb s = Ok l
  end.
Definition chunks_of (v : ostr) (n : nat) : Prop :=
  match v with None => n = 1 | Some s => exists z, parse_int s = Some z /\ n = Z.to_nat z end.
(** the configuration that the options of a field say *)
Definition described (m : mapping) (f : str) (c : tag_config) : Prop :=
  exists regex spellings merge extend chunks block,
    given_last m (f ++ u ".match-prefix-regex") regex /\ regex_of regex (tc_prefix_regex c)
    /\ given_last m (f ++ u ".alternative-spellings") spellings /\ spellings_of spellings (tc_spellings c)
    /\ given_last m (f ++ u ".merge") merge /\ switch merge (tc_merge c)
    /\ given_last m (f ++ u ".extend-to-line") extend /\ switch extend (tc_extend c)
    /\ given_last m (f ++ u ".max_chunks") chunks /\ chunks_of chunks (tc_max_chunks c)
    /\ given_last m (f ++ u ".block") block /\ tc_block c = block.

(** what is used of the libraries *)
Hypothesis Hlower : lower (u "True") = u "true".
Hypothesis Hint : parse_int (u "1") = Some 1%Z.
Let conf := tag_config_of sp lb lower compiles parse_int.
Let conf_map := tag_config_map sp lb lower compiles parse_int.

Lemma given_iff m key v : given_last m key v <-> dict_get key (flat_config m) = v.
Proof using.
  unfold given_last, flat_config, all_options. rewrite dict_update_get. cbn [dict_get]. generalize (flat_map snd m) as l. clear m. intros l.
  assert (G : forall x : ostr, match dict_get key (rev l) with Some w => Some w | None => None end = x <-> dict_get key (rev l) = x) by (intros x; now destruct (dict_get key (rev l))).
  rewrite G. clear G. induction l as [|[k x] l IH] using rev_ind.
  - cbn. destruct v as [x|]; [|intuition]. split; [intros (p & q & E & _); destruct p; discriminate | discriminate].
  - rewrite rev_app_distr. cbn [rev app dict_get]. destruct (streq key k) eqn:E.
    + apply streq_true in E. subst k. destruct v as [y|].
      * split.
        -- intros (p & q & Q & N). destruct q as [|z q _] using rev_ind; [apply app_inj_tail in Q as [_ [= <-]]; reflexivity|].
           exfalso. change (p ++ (key, y) :: q ++ [z]) with (p ++ ((key, y) :: q) ++ [z]) in Q. rewrite app_assoc in Q. apply app_inj_tail in Q as [_ <-].
           apply N. rewrite map_app. apply in_or_app. right. now left.
        -- intros [= <-]. exists l, []. split; [reflexivity | intros []].
      * split; [|discriminate]. intros N. exfalso. apply N. rewrite map_app. apply in_or_app. right. now left.
    + apply streq_false in E. rewrite <- IH. destruct v as [y|].
      * split.
        -- intros (p & q & Q & N). destruct q as [|z q _] using rev_ind; [apply app_inj_tail in Q as [_ [= -> _]]; contradiction|].
           change (p ++ (key, y) :: q ++ [z]) with (p ++ ((key, y) :: q) ++ [z]) in Q. rewrite app_assoc in Q. apply app_inj_tail in Q as [-> <-].
           exists p, q. split; [reflexivity|]. intros I. apply N. rewrite map_app. apply in_or_app. now left.
        -- intros (p & q & -> & N). exists p, (q ++ [(k, x)]). split; [now rewrite <- app_assoc|]. rewrite map_app. intros I.
           apply in_app_or in I as [I|[I|[]]]; [contradiction|]. now apply E.
      * split; intros N I; apply N.
        -- rewrite map_app. apply in_or_app. now left.
        -- rewrite map_app in I. apply in_app_or in I as [I|[I|[]]]; [exact I|]. exfalso. now apply E.
Qed.
Lemma strtobool_iff s b : strtobool lower s = Ok b <-> means s b.
Proof using.
  unfold strtobool, means. fold true_words false_words. destruct (mem (lower s) true_words) eqn:T.
  - pose proof T as T'. apply mem_In in T'. destruct b; [split; auto|]. split; [discriminate|]. intros F. exfalso.
    cbn [false_words true_words In] in T', F. repeat (destruct T' as [T'|T']; [rewrite <- T' in F; repeat (destruct F as [F|F]; [discriminate|]); exact F|]). exact T'.
  - apply mem_nIn in T. destruct (mem (lower s) false_words) eqn:F.
    + apply mem_In in F. destruct b; [|split; auto]. split; [discriminate | contradiction].
    + apply mem_nIn in F. destruct b; split; try discriminate; contradiction.
Qed.
Lemma unquotes_iff r r' : r <> [] -> (unquotes r r' <-> (if quoted r then removelast (tl r) else r) = r').
Proof using.
  intros Hr. assert (Q : quoted r = true <-> exists x, r = 34%N :: x ++ [34%N]).
  { unfold quoted. destruct r as [|c r]; [easy|]. destruct r as [|z r _] using rev_ind.
    - cbn. split; [discriminate|]. intros (x & E). injection E as _ E. destruct x; discriminate.
    - cbn [rev]. rewrite rev_app_distr. cbn [rev app]. rewrite !andb_true_iff, !N.eqb_eq. split.
      + intros [[_ ->] ->]. exists r. reflexivity.
      + intros (x & E). injection E as -> E. apply app_inj_tail in E as [-> ->]. split; [split; [|reflexivity]|reflexivity]. cbn [length]. rewrite app_length. cbn [length]. apply Nat.leb_le. lia. }
  destruct (quoted r).
  - destruct (proj1 Q eq_refl) as [x ->]. cbn [tl]. rewrite removelast_last. split.
    + intros H. inversion H as [y E|y N E]; subst; [now apply app_inj_tail in E as [-> _]|]. exfalso. now apply (N x).
    + intros <-. constructor.
  - split.
    + intros H. inversion H as [y E|y N E]; subst; [|reflexivity]. exfalso. assert (false = true); [|discriminate]. apply Q. eauto.
    + intros <-. constructor. intros x E. assert (false = true); [|discriminate]. apply Q. eauto.
Qed.

Lemma option_key_eq f p : option_key f (u p) = f ++ 46%N :: u p.
Proof using. reflexivity. Qed.
(** The configuration of a field is the one that its options describe. *)
Theorem C86_field m f c : conf (flat_config m) f = Ok c <-> described m f c.
Proof using Hlower Hint.
  unfold conf, tag_config_of, described.
  change (option_key f (u "match-prefix-regex")) with (f ++ u ".match-prefix-regex"). change (option_key f (u "alternative-spellings")) with (f ++ u ".alternative-spellings").
  change (option_key f (u "merge")) with (f ++ u ".merge"). change (option_key f (u "extend-to-line")) with (f ++ u ".extend-to-line").
  change (option_key f (u "max_chunks")) with (f ++ u ".max_chunks"). change (option_key f (u "block")) with (f ++ u ".block").
  set (x1 := dict_get (f ++ u ".match-prefix-regex") _). set (x2 := dict_get (f ++ u ".alternative-spellings") _). set (x3 := dict_get (f ++ u ".merge") _).
  set (x4 := dict_get (f ++ u ".extend-to-line") _). set (x5 := dict_get (f ++ u ".max_chunks") _). set (x6 := dict_get (f ++ u ".block") _).
  assert (E1 : forall r, parse_regex compiles x1 = Ok r <-> regex_of x1 r).
  { intros r. unfold parse_regex, regex_of. destruct x1 as [[|ch s]|]; [split; [now intros [= <-] | now intros ->] | |split; [now intros [= <-] | now intros ->]].
    pose proof (unquotes_iff (ch :: s)) as U. cbv zeta. destruct (compiles _) eqn:C.
    - split; [intros [= <-]; eexists; split; [now apply U | now split] | intros (r' & H1 & H2 & ->); apply U in H1; [now rewrite H1 | easy]].
    - split; [discriminate|]. intros (r' & H1 & H2 & ->). apply U in H1; [|easy]. congruence. }
  assert (E2 : forall l, (match x2 with None | Some [] => Ok [] | Some s => parse_alternative_spellings sp lb s end = Ok l) <-> spellings_of x2 l).
  { intros l. unfold spellings_of. destruct x2 as [[|ch s]|]; [split; [now intros [= <-] | now intros ->] | reflexivity | split; [now intros [= <-] | now intros ->]]. }
  assert (ES : forall x b, strtobool lower (match x with Some s => s | None => u "True" end) = Ok b <-> switch x b).
  { intros x b. rewrite strtobool_iff. destruct x as [s|]; [reflexivity|]. unfold switch, means. rewrite Hlower. destruct b; cbn; split; intros; try reflexivity; try discriminate; [auto 10|].
    repeat (destruct H as [H|H]; [discriminate|]). contradiction. }
  assert (E5 : forall n, (exists z, parse_int (match x5 with Some s => s | None => u "1" end) = Some z /\ n = Z.to_nat z) <-> chunks_of x5 n).
  { intros n. unfold chunks_of. destruct x5 as [s|]; [reflexivity|]. rewrite Hint. split; [intros (z & [= <-] & ->); reflexivity | intros ->; exists 1%Z; auto]. }
  split.
  - destruct (parse_regex compiles x1) as [r|] eqn:R1; [|discriminate]. cbn [bind].
    destruct (match x2 with None | Some [] => Ok [] | Some s => _ end) as [l|] eqn:R2; [|discriminate]. cbn [bind].
    destruct (strtobool lower match x3 with Some s => s | None => _ end) as [b3|] eqn:R3; [|discriminate]. cbn [bind].
    destruct (strtobool lower match x4 with Some s => s | None => _ end) as [b4|] eqn:R4; [|discriminate]. cbn [bind].
    destruct (parse_int match x5 with Some s => s | None => u "1" end) as [z|] eqn:R5; [|discriminate]. cbn [bind].
    intros E. injection E as E. subst c. exists x1, x2, x3, x4, x5, x6.
    cbn [tc_prefix_regex tc_spellings tc_merge tc_extend tc_max_chunks tc_block]. rewrite !given_iff. repeat split; try (now apply E1); try (now apply E2); try (now apply ES).
    apply E5. now exists z.
  - intros (y1 & y2 & y3 & y4 & y5 & y6 & G1 & D1 & G2 & D2 & G3 & D3 & G4 & D4 & G5 & D5 & G6 & D6). apply given_iff in G1, G2, G3, G4, G5, G6.
    fold x1 in G1. fold x2 in G2. fold x3 in G3. fold x4 in G4. fold x5 in G5. fold x6 in G6. subst y1 y2 y3 y4 y5 y6.
    rewrite (proj2 (E1 _) D1). cbn [bind]. rewrite (proj2 (E2 _) D2). cbn [bind]. rewrite (proj2 (ES _ _) D3). cbn [bind]. rewrite (proj2 (ES _ _) D4). cbn [bind].
    apply E5 in D5 as (z & -> & D5). cbn [bind]. rewrite <- D5, <- D6. destruct c. reflexivity.
Qed.
(** The map has exactly the fields, each with the configuration that its options describe;
    in whatever order the set of fields is iterated over. *)
Theorem C86_map set_order m : (forall l f, In f (set_order l) <-> In f l) ->
  (forall d, conf_map set_order m = Ok d -> NoDup (map fst d) /\ forall f c, dict_get f d = Some c <-> field_of m f /\ described m f c)
  /\ ((exists d, conf_map set_order m = Ok d) <-> forall f, field_of m f -> exists c, described m f c).
Proof using Hlower Hint.
  intros Hs. unfold conf_map, tag_config_map. set (order := set_order (config_fields m)).
  assert (Ho : forall f, In f order <-> field_of m f).
  { intros f. unfold order, config_fields, field_of. rewrite Hs, filter_In, negb_true_iff, has_false. reflexivity. }
  assert (U : forall f c c', described m f c -> described m f c' -> c = c') by (intros f c c' H H'; apply C86_field in H, H'; congruence).
  assert (G : forall l d0, NoDup (map fst d0) ->
    (forall d, foldM (fun d f => do c <- conf (flat_config m) f ;; Ok (dict_set f c d)) d0 l = Ok d ->
       NoDup (map fst d) /\ forall f c, dict_get f d = Some c <-> (In f l /\ described m f c) \/ (~ In f l /\ dict_get f d0 = Some c))
    /\ ((exists d, foldM (fun d f => do c <- conf (flat_config m) f ;; Ok (dict_set f c d)) d0 l = Ok d) <-> forall f, In f l -> exists c, described m f c)).
  { induction l as [|f l IH]; intros d0 Hd.
    - cbn [foldM]. split.
      + intros d [= <-]. split; [exact Hd|]. intros f c. cbn [In]. tauto.
      + split; [intros _ f [] | eauto].
    - cbn [foldM]. destruct (conf (flat_config m) f) as [c0|e] eqn:C; cbn [bind].
      + destruct (IH (dict_set f c0 d0) (dict_set_keys f c0 d0 Hd)) as [I1 I2]. apply C86_field in C. split.
        * intros d E. destruct (I1 d E) as [J1 J2]. split; [exact J1|]. intros g c. rewrite J2. cbn [In].
          destruct (in_dec str_eq_dec g l) as [Hg|Hg]; [tauto|].
          destruct (str_eq_dec f g) as [<-|Hn].
          -- rewrite dict_get_set_same. split; [intros [[? _]|[_ [= <-]]]; [contradiction | left; auto] | intros [[_ D]|[N _]]; [right; split; [exact Hg | f_equal; eapply U; eauto] | exfalso; apply N; now left]].
          -- rewrite dict_get_set_other by congruence. tauto.
        * rewrite I2. split; [intros H g [<-|Hg]; [eauto | now apply H] | intros H g Hg; apply H; now right].
      + split; [discriminate|]. split; [intros [d E]; discriminate|]. intros H. exfalso. destruct (H f (or_introl eq_refl)) as [c D]. apply C86_field in D. congruence. }
  destruct (G order [] ltac:(constructor)) as [G1 G2]. split.
  - intros d E. destruct (G1 d E) as [H1 H2]. split; [exact H1|]. intros f c. rewrite H2, Ho. cbn [dict_get]. intuition discriminate.
  - fold conf. rewrite G2. split; intros H f Hf; apply H; now apply Ho.
Qed.
(** A field without any of the options has the configuration of a tag that is not in the
    map at all (L97, L142-143). *)
Theorem C86_default m f : (forall key, In key (map fst (flat_map snd m)) -> forall s, key <> f ++ 46%N :: s) -> described m f default_tag_config.
Proof using.
  intros H. assert (G : forall p, given_last m (f ++ 46%N :: p) None) by (intros p I; exact (H _ I p eq_refl)).
  exists None, None, None, None, None, None. cbn [default_tag_config tc_prefix_regex tc_spellings tc_merge tc_extend tc_max_chunks tc_block].
  repeat split; try reflexivity; apply (G (u _)).
Qed.
End Spec.

Definition ex_sections : mapping :=
  [(u "a", [(u "title", u "t"); (u "title.merge", u "no"); (u "title.match-prefix-regex", u """ab c""")]);
   (u "b", [(u "doi", u "d"); (u "title.merge", u "off"); (u "title.max_chunks", u "2"); (u "doi.sub.x", u "y")])].
Definition ex_lower (s : str) : str := map (fun c => if ascii_upper c then (c + 32)%N else c) s.
Definition ex_int (s : str) : option Z := if streq s (u "1") then Some 1%Z else if streq s (u "2") then Some 2%Z else None.
Definition ex_map := tag_config_map ascii_space (N.eqb 10) ex_lower (fun _ => true) ex_int (@rev str).
Example C86_ex :
  ex_map ex_sections =
    Ok [(u "doi", default_tag_config); (u "title", mkTagConfig (Some (u "ab c")) [] false true 2 None)]
  /\ ex_map [(u "a", [(u "title", u "t"); (u "title.block", u "x"); (u "title.merge", u "maybe")])] = Err ValueError
  /\ ex_lower (u "True") = u "true" /\ ex_int (u "1") = Some 1%Z
  /\ forall l f, In f (@rev str l) <-> In f l.
Proof.
  do 4 (split; [vm_compute; reflexivity|]). intros l f. symmetry. apply in_rev.
Qed.

Print Assumptions C86_field.
Print Assumptions C86_map.
Print Assumptions C86_default.
