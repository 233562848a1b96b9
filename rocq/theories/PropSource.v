(** C84, C85: the source of a figure document, names of target files. *)
From Verif Require Import Base ModelFuzzyMatch ModelTarget ModelMapping ModelPipeline ModelCommands ModelSource PropTarget PropMapping PropPipeline.
Open Scope list_scope.
Open Scope nat_scope.

(** * C84 *)
(** ** Specification *)
Definition inside (x s : str) : Prop := exists a b, s = a ++ x ++ b.
(** the pieces with the separator between them *)
Fixpoint joined (sep : str) (l : list str) : str :=
  match l with [] => [] | [x] => x | x :: l' => x ++ sep ++ joined sep l' end.
(** every [<] is closed by a [>] before the next [<] *)
Definition tags_closed (s : str) : Prop := forall a m b, s = a ++ 60%N :: m ++ 60%N :: b -> In 62%N m.

Lemma contains_inside x s : contains x s = true <-> inside x s.
Proof.
  unfold inside. induction s as [|y s IH]; cbn [contains].
  - rewrite orb_false_r, starts_with_spec. split; [intros [r ->]; now exists [], r|]. intros (a & b & E). destruct a; [|discriminate]. now exists b.
  - rewrite orb_true_iff, starts_with_spec, IH. split.
    + intros [[r ->]|(a & b & ->)]; [now exists [], r | now exists (y :: a), b].
    + intros ([|z a] & b & E); cbn [app] in E; [left; now exists b|]. injection E as -> ->. right. now exists a, b.
Qed.
Lemma repl_pieces sep s s' : repl sep [] s s' -> exists p l, s = joined sep (p :: l) /\ s' = concat (p :: l) /\ (sep <> [] -> Forall (fun x => ~ inside sep x) (p :: l)).
Proof.
  induction 1 as [|s s' H (p & l & -> & -> & F)|c s s' Hc H (p & l & -> & -> & F)].
  - exists [], []. split; [reflexivity|]. split; [reflexivity|]. intros Hs. constructor; [|constructor]. intros ([|] & b & E); [|discriminate].
    cbn [app] in E. symmetry in E. apply app_eq_nil in E as [E _]. now apply Hs.
  - exists [], (p :: l). split; [reflexivity|]. split; [reflexivity|]. intros Hs. constructor; [|now apply F]. intros ([|] & b & E); [|discriminate].
    cbn [app] in E. symmetry in E. apply app_eq_nil in E as [E _]. now apply Hs.
  - exists (c :: p), l. split; [destruct l; reflexivity|]. split; [reflexivity|]. intros Hs. specialize (F Hs). inversion F as [|? ? F1 F2]; subst. constructor; [|exact F2].
    intros (a & b & E). destruct a as [|y a]; cbn [app] in E; [|injection E as -> E; apply F1; now exists a, b].
    assert (Q : starts_with sep (c :: joined sep (p :: l)) = true); [|congruence]. apply starts_with_spec.
    destruct l as [|q l]; [exists b; exact E|]. exists (b ++ sep ++ joined sep (q :: l)).
    change (c :: joined sep (p :: q :: l)) with ((c :: p) ++ sep ++ joined sep (q :: l)). rewrite E, <- app_assoc. reflexivity.
Qed.

(** A document with opening content tags, or without closing ones, is left as it is;
    otherwise exactly the closing tags are taken out. *)
Theorem C84_fixed data :
  (inside (u "<content>") data \/ ~ inside (u "</content>") data -> fix_source data = data)
  /\ (~ inside (u "<content>") data -> inside (u "</content>") data ->
      exists l, data = joined (u "</content>") l /\ 2 <= length l /\ Forall (fun x => ~ inside (u "</content>") x) l /\ fix_source data = concat l).
Proof.
  unfold fix_source. fold close_content open_content. rewrite <- !contains_inside. split.
  - intros [->|H]; [now rewrite andb_false_r|]. destruct (contains close_content data); [contradiction H; reflexivity | reflexivity].
  - intros H1 H2. rewrite H2. destruct (contains open_content data); [contradiction H1; reflexivity|]. cbn [andb negb].
    destruct (repl_pieces close_content data _ (py_replace_repl close_content [] data ltac:(discriminate))) as (p & l & E1 & E2 & F). specialize (F ltac:(discriminate)).
    exists (p :: l). split; [exact E1|]. split; [|split; [exact F | exact E2]].
    destruct l as [|q l]; [|cbn; lia]. exfalso. cbn [joined] in E1. subst p. inversion F as [|? ? F1 _]; subst. now apply F1, contains_inside.
Qed.
Lemma joined_cons sep x l : joined sep (x :: l) = x ++ match l with [] => [] | _ => sep ++ joined sep l end.
Proof. destruct l; [cbn; now rewrite app_nil_r | reflexivity]. Qed.
(** in a document whose tags are closed no closing content tag without an opening one is left *)
Theorem C84_clean data : tags_closed data -> inside (u "</content>") (fix_source data) -> inside (u "<content>") (fix_source data).
Proof.
  intros Ht H. destruct (contains open_content data) eqn:O.
  { destruct (C84_fixed data) as [F _]. rewrite F by (left; now apply contains_inside). now apply contains_inside. }
  destruct (contains close_content data) eqn:C.
  2:{ destruct (C84_fixed data) as [F _]. assert (N : ~ inside (u "</content>") data) by (intros Q; apply contains_inside in Q; fold close_content in Q; congruence).
      rewrite F in H by (now right). contradiction. }
  destruct (C84_fixed data) as [_ F]. destruct F as (l & E & _ & Fl & Q).
  { intros P. apply contains_inside in P. fold open_content in P. congruence. }
  { now apply contains_inside. }
  rewrite Q in H. clear Q O C. exfalso. revert data E Ht. induction l as [|p l IH]; intros data E Ht.
  - destruct H as ([|] & b & H); discriminate.
  - inversion Fl as [|? ? F1 F2]; subst. rewrite joined_cons in Ht. destruct H as (a & b & H). cbn [concat] in H.
    apply app_eq_app in H as (m & [[H1 H2]|[H1 H2]]).
    + (* the occurrence starts in the first piece *)
      symmetry in H2. apply app_eq_app in H2 as (n & [[H3 H4]|[H3 H4]]).
      * apply F1. exists a, n. now rewrite H1, H3.
      * destruct l as [|q l].
        { cbn [concat] in H4. symmetry in H4. apply app_eq_nil in H4 as [-> _]. rewrite app_nil_r in H3. apply F1. exists a, []. now rewrite app_nil_r, H3. }
        destruct n as [|y n _] using rev_ind; [rewrite app_nil_r in H3; apply F1; exists a, []; now rewrite app_nil_r, H3|].
        change (u "</content>") with (u "</content" ++ [62%N]) in H3. rewrite app_assoc in H3. apply app_inj_tail in H3 as [H3 <-].
        destruct m as [|z m].
        { cbn [app] in H3. assert (I : inside (u "</content>") (concat (q :: l))).
          { exists [], b. rewrite H4. change (u "</content>") with (u "</content" ++ [62%N]). now rewrite H3. }
          apply (IH I F2 (joined (u "</content>") (q :: l)) eq_refl). intros a' m' b' E'. apply (Ht (p ++ u "</content>" ++ a') m' b'). rewrite E'. now rewrite <- !app_assoc. }
        assert (z = 60%N) as -> by (cbn in H3; congruence).
        assert (G : In 62%N m). { apply (Ht a m (u "/content>" ++ joined (u "</content>") (q :: l))). rewrite H1, <- app_assoc. reflexivity. }
        assert (K : In 62%N (u "</content")) by (rewrite H3; apply in_or_app; left; now right). cbn in K. intuition discriminate.
    + apply (IH ltac:(now exists m, b) F2 (joined (u "</content>") l) eq_refl). intros a' m' b' E'.
      destruct l as [|q l]; [destruct a'; discriminate|]. apply (Ht (p ++ u "</content>" ++ a') m' b'). rewrite E'. now rewrite <- !app_assoc.
Qed.
Example C84_ex : fix_source (u "<a></content><b/></content></a>") = u "<a><b/></a>"
  /\ fix_source (u "<content></content></content>") = u "<content></content></content>".
Proof. split; reflexivity. Qed.
(** taking out the closing tags can make a new one *)
Theorem C84_refuted : exists data, ~ inside (u "<content>") data /\ inside (u "</content>") (fix_source data) /\ fix_source (fix_source data) <> fix_source data.
Proof.
  exists (u "</con</content>tent>"). split; [|split].
  - intros H. apply contains_inside in H. discriminate.
  - apply contains_inside. reflexivity.
  - discriminate.
Qed.

(** * C85 *)
(** A pattern is accepted exactly if its first character occurs three times in it: it is
    then the part between the first and second, and between second and third. *)
Theorem C85_parsed pattern s : parse_substitution pattern = Ok s <->
  exists d, pattern = d :: su_match s ++ d :: su_replace s ++ d :: su_options s
    /\ ~ In d (su_match s) /\ ~ In d (su_replace s) /\ ~ In d (su_options s) /\ su_suffix s = [].
Proof.
  split.
  - destruct pattern as [|d p]; [discriminate|]. unfold parse_substitution. destruct (split_on_join d (d :: p)) as [J F].
    cbn [split_on] in *. rewrite N.eqb_refl in *. destruct (split_on d p) as [|m [|r [|o [|x l]]]] eqn:E; try discriminate.
    intros [= <-]. exists d. cbn [su_match su_replace su_suffix su_options]. inversion F as [|? ? _ F1]; subst. inversion F1 as [|? ? F2 F3]; subst.
    inversion F3 as [|? ? F4 F5]; subst. inversion F5; subst. repeat split; auto.
  - destruct s as [m r x o]. cbn [su_match su_replace su_suffix su_options]. intros (d & -> & H1 & H2 & H3 & ->).
    unfold parse_substitution. cbn [split_on]. rewrite N.eqb_refl, split_on_app, split_on_app, split_on_nosep by assumption. reflexivity.
Qed.
Theorem C85_error pattern : (pattern = [] -> parse_substitution pattern = Err IndexError)
  /\ (forall d p, pattern = d :: p -> count_occ N.eq_dec pattern d <> 3 -> parse_substitution pattern = Err ValueError).
Proof.
  split; [now intros ->|]. intros d p -> H. assert (L : forall s, length (split_on d s) = S (count_occ N.eq_dec s d)).
  { induction s as [|c s IH]; [reflexivity|]. cbn [split_on count_occ]. destruct (N.eqb c d) eqn:E.
    - apply N.eqb_eq in E. subst. destruct (N.eq_dec d d); [|contradiction]. cbn [length]. now rewrite IH.
    - apply N.eqb_neq in E. destruct (N.eq_dec c d); [contradiction|]. pose proof (split_on_ne d s). destruct (split_on d s); [contradiction | exact IH]. }
  unfold parse_substitution. specialize (L (d :: p)). destruct (split_on d (d :: p)) as [|a [|b [|c [|e [|f l]]]]]; try reflexivity. cbn [length] in L. lia.
Qed.
(** what follows the last delimiter (the flags of a sed expression) has no effect: neither
    global nor case insensitive replacement can be switched on or off *)
Theorem C85_options re_sub d m r o o' name : ~ In d m -> ~ In d r -> ~ In d o -> ~ In d o' ->
  regex_change_name re_sub name (d :: m ++ d :: r ++ d :: o) = re_sub m r name
  /\ regex_change_name re_sub name (d :: m ++ d :: r ++ d :: o') = re_sub m r name.
Proof.
  intros H1 H2 H3 H4. assert (P : forall o, ~ In d o -> parse_substitution (d :: m ++ d :: r ++ d :: o) = Ok (mkSubst m r [] o)).
  { intros x Hx. apply C85_parsed. exists d. cbn. auto. }
  unfold regex_change_name. rewrite !P by assumption. split; reflexivity.
Qed.
(** The target of a source depends on the name of the source only, not its directory, so
    the temporary copy of a source (auto_annotate_figure.py L103) has the target of the source. *)
Theorem C85_directory re_sub xml_path pattern dir dir' name : slash_free name ->
  target_xml_path re_sub xml_path pattern (join_path dir name) = target_xml_path re_sub xml_path pattern (join_path dir' name).
Proof.
  intros H. unfold target_xml_path. now rewrite !basename_join by exact H.
Qed.
Example C85_ex : parse_substitution (u "/-header.tei.xml/.xml/g") = Ok (mkSubst (u "-header.tei.xml") (u ".xml") [] (u "g"))
  /\ parse_substitution (u "/a/b") = Err ValueError /\ parse_substitution (u "/a\/b/c/") = Err ValueError
  /\ target_xml_path (fun m r n => Ok (py_replace m r n)) (u "xml") (u "|-header|.x|") (u "/data/in/a-header") = Ok (u "xml/a.x").
Proof. repeat split. Qed.

Print Assumptions C84_fixed.
Print Assumptions C84_clean.
Print Assumptions C84_refuted.
Print Assumptions C85_parsed.
Print Assumptions C85_error.
Print Assumptions C85_options.
Print Assumptions C85_directory.
