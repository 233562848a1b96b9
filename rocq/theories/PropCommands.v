(** C77, C78: the tag mappings of the commands *)
From Verif Require Import Base ModelTags ModelTokenize ModelXml ModelTei ModelTeiDoc SpecTeiRead SpecTeiWrite PropTokenize PropTeiRead PropTeiWrite
  PropTeiPrefix ModelMapping ModelCommands.
Open Scope list_scope.
Open Scope nat_scope.

(* ---------------------------------------------------------------- *)
(** ** Specification *)
(** a path of elements in a namespace written with the prefix [p], and in full *)
Definition short (p : str) (names : list str) : str := join_path (map (fun n => p ++ u ":" ++ n) names).
Definition qualified (url : str) (names : list str) : str := join_path (map (fun n => u "{" ++ url ++ u "}" ++ n) names).
(** The tag [v] (None: untagged) is still there after its element is loaded. *)
Definition kept (m : list (str * str)) (v : ostr) : Prop := loaded_value m (tag_path m v) = v.
(** [wd] is right about the characters below 128 *)
Definition ascii_right (wd : N -> bool) : Prop := forall c, (c < 128)%N -> wd c = ascii_word c.

(* ---------------------------------------------------------------- *)
(** ** Namespaces *)
Lemma resolve_go_ext wd wd' pat repl s : (forall c, In c s -> wd c = wd' c) -> forall skip prev,
  resolve_go wd pat repl skip prev s = resolve_go wd' pat repl skip prev s.
Proof.
  induction s as [|c s IH]; intros H skip prev; [reflexivity|]. cbn [resolve_go].
  rewrite (H c) by now left. assert (Hs : forall x, In x s -> wd x = wd' x) by (intros x Hx; apply H; now right).
  destruct skip; [|now rewrite IH]. destruct (starts_with pat (c :: s) && xorb prev (wd' c)); now rewrite IH.
Qed.
Lemma resolve_skip wd pat repl x s : forall prev,
  exists prev', resolve_go wd pat repl (length x) prev (x ++ s) = resolve_go wd pat repl 0 prev' s.
Proof.
  induction x as [|c x IH]; intros prev; cbn [length app]; [eauto|]. cbn [resolve_go]. apply IH.
Qed.
Lemma starts_with_app p s : starts_with p (p ++ s) = true.
Proof. induction p as [|c p IH]; cbn; [reflexivity|]. now rewrite N.eqb_refl. Qed.
Lemma starts_with_In p s c : starts_with p s = true -> In c p -> exists a r, s = a ++ c :: r /\ length a < length p /\ starts_with (a ++ [c]) p = true.
Proof.
  revert s. induction p as [|x p IH]; intros s H []; destruct s as [|y s]; try discriminate.
  - subst x. cbn [starts_with] in H. apply andb_true_iff in H as [H _]. apply N.eqb_eq in H. subst y. exists [], s. cbn. rewrite N.eqb_refl. repeat split. lia.
  - cbn [starts_with] in H. apply andb_true_iff in H as [H H1]. apply N.eqb_eq in H. subst y. destruct (IH s H1 H0) as (a & r & -> & Hl & Hs).
    exists (x :: a), r. cbn. rewrite N.eqb_refl, Hs. repeat split. lia.
Qed.
(** no match can begin in a name: it would have to reach over the next slash *)
Lemma no_match (wd : N -> bool) (p f r : str) c : forallb wd p = true -> wd 47%N = false ->
  ~ In 58%N (c :: f) -> r = [] \/ (exists r', r = 47%N :: r') -> starts_with (p ++ u ":") ((c :: f) ++ r) = false.
Proof.
  intros Hp Hs Hc Hr. destruct (starts_with (p ++ u ":") ((c :: f) ++ r)) eqn:E; [exfalso|reflexivity].
  assert (Hw : forall x, In x p -> x <> 47%N).
  { intros x Hx ->. rewrite forallb_forall in Hp. rewrite (Hp _ Hx) in Hs. discriminate. }
  revert E Hc. generalize (c :: f) as g. clear c f. induction p as [|x p IH]; intros g E Hc.
  - change (starts_with [58%N] (g ++ r) = true) in E. destruct g as [|y g]; cbn [starts_with app] in E.
    + destruct Hr as [-> |[r' ->]]; discriminate.
    + apply andb_true_iff in E as [E _]. apply N.eqb_eq in E. subst y. apply Hc. now left.
  - cbn [forallb] in Hp. apply andb_true_iff in Hp as [_ Hp]. destruct g as [|y g].
    + destruct Hr as [-> |[r' ->]]; [discriminate|]. cbn [app starts_with] in E. apply andb_true_iff in E as [E _]. apply N.eqb_eq in E.
      apply (Hw x); [now left|congruence].
    + cbn [app starts_with] in E. apply andb_true_iff in E as [_ E]. apply (IH Hp (fun z Hz => Hw z (or_intror Hz)) g E). intros H. apply Hc. now right.
Qed.
Lemma resolve_name wd p repl f r : forallb wd p = true -> wd 47%N = false -> ~ In 58%N f -> r = [] \/ (exists r', r = 47%N :: r') ->
  forall prev, exists prev', resolve_go wd (p ++ u ":") repl 0 prev (f ++ r) = f ++ resolve_go wd (p ++ u ":") repl 0 prev' r.
Proof.
  intros Hp Hs Hf Hr. induction f as [|c f IH]; intros prev; [exists prev; reflexivity|].
  pose proof (no_match wd p f r c Hp Hs Hf Hr) as E. cbn [app] in *. cbn [resolve_go]. rewrite E. cbn [andb].
  destruct (IH (fun H => Hf (or_intror H)) (wd c)) as [prev' ->]. eauto.
Qed.

Theorem C77_qualified : forall wd p url names,
  p <> [] -> forallb wd p = true -> wd 47%N = false ->
  (forall n, In n names -> ~ In 58%N n) ->
  resolve_namespace wd [(p, url)] (short p names) = qualified url names.
Proof.
  intros wd p url names Hp0 Hp Hs Hn. unfold resolve_namespace. cbn [fold_left fst snd]. set (repl := u "{" ++ url ++ u "}").
  unfold short, qualified.
  assert (G : forall r, r = [] \/ (exists r', r = 47%N :: r') -> forall n, In n names -> exists prev',
     resolve_go wd (p ++ u ":") repl 0 false ((p ++ u ":" ++ n) ++ r) = (repl ++ n) ++ resolve_go wd (p ++ u ":") repl 0 prev' r).
  { intros r Hr n Hin. destruct p as [|c p]; [easy|].
    assert (E : resolve_go wd ((c :: p) ++ u ":") repl 0 false (((c :: p) ++ u ":" ++ n) ++ r)
      = repl ++ resolve_go wd ((c :: p) ++ u ":") repl (length (p ++ u ":")) (wd c) ((p ++ u ":") ++ n ++ r)).
    { replace (((c :: p) ++ u ":" ++ n) ++ r) with (c :: (p ++ u ":") ++ n ++ r) by (cbn [app]; now rewrite <- !app_assoc).
      cbn [resolve_go]. change (c :: (p ++ u ":") ++ n ++ r) with (((c :: p) ++ u ":") ++ n ++ r). rewrite starts_with_app.
      cbn [forallb] in Hp. apply andb_true_iff in Hp as [-> _]. cbn [andb xorb]. do 2 f_equal. cbn [app length]. lia. }
    rewrite E. destruct (resolve_skip wd ((c :: p) ++ u ":") repl (p ++ u ":") (n ++ r) (wd c)) as [p1 ->].
    destruct (resolve_name wd (c :: p) repl n r Hp Hs (Hn n Hin) Hr p1) as [p2 ->]. exists p2. now rewrite app_assoc. }
  assert (Hslash : forall x prev, resolve_go wd (p ++ u ":") repl 0 prev (u "/" ++ x) = u "/" ++ resolve_go wd (p ++ u ":") repl 0 false x).
  { intros x prev. change (u "/" ++ x) with (47%N :: x). cbn [resolve_go]. destruct p as [|c p]; [easy|]. cbn [app starts_with].
    cbn [forallb] in Hp. apply andb_true_iff in Hp as [Hc _]. assert (Ec : N.eqb c 47 = false) by (apply N.eqb_neq; intros ->; congruence).
    rewrite Ec, Hs. reflexivity. }
  clear Hn. induction names as [|n names IH]; [reflexivity|].
  destruct names as [|n' names].
  - cbn [map join_path]. destruct (G [] (or_introl eq_refl) n (or_introl eq_refl)) as [p' E].
    cbn [resolve_go] in E. rewrite !app_nil_r in E. rewrite E. unfold repl. now rewrite <- !app_assoc.
  - change (join_path (map (fun n0 => p ++ u ":" ++ n0) (n :: n' :: names)))
      with ((p ++ u ":" ++ n) ++ u "/" ++ join_path (map (fun n0 => p ++ u ":" ++ n0) (n' :: names))).
    change (join_path (map (fun n0 => u "{" ++ url ++ u "}" ++ n0) (n :: n' :: names)))
      with ((u "{" ++ url ++ u "}" ++ n) ++ u "/" ++ join_path (map (fun n0 => u "{" ++ url ++ u "}" ++ n0) (n' :: names))).
    destruct (G (u "/" ++ join_path (map (fun n0 => p ++ u ":" ++ n0) (n' :: names))) (or_intror (ex_intro _ _ eq_refl)) n (or_introl eq_refl)) as [p' ->].
    rewrite Hslash, (IH (fun r A m C => G r A m (or_intror C))). f_equal. unfold repl. now rewrite <- !app_assoc.
Qed.
(** and the path is cut into these elements again *)
Lemma split_in a : forall inb cur s, ~ In 125%N a -> inb = true ->
  split_path_go inb cur (a ++ s) = split_path_go true (rev a ++ cur) s.
Proof.
  induction a as [|c a IH]; intros inb cur s Ha ->; [reflexivity|]. cbn [app split_path_go]. rewrite andb_false_r.
  assert (Ec : N.eqb c 125 = false) by (apply N.eqb_neq; intros ->; apply Ha; now left). rewrite Ec. rewrite IH.
  - cbn [rev]. now rewrite <- app_assoc.
  - intros H. apply Ha. now right.
  - now destruct (N.eqb c 123).
Qed.
Lemma split_out a : forall cur s, ~ In 47%N a -> ~ In 123%N a -> ~ In 125%N a ->
  split_path_go false cur (a ++ s) = split_path_go false (rev a ++ cur) s.
Proof.
  induction a as [|c a IH]; intros cur s H1 H2 H3; [reflexivity|]. cbn [app split_path_go].
  rewrite (proj2 (N.eqb_neq c 47)), (proj2 (N.eqb_neq c 123)), (proj2 (N.eqb_neq c 125)) by (intros ->; cbn [In] in *; tauto). cbn [andb].
  rewrite IH by (cbn [In] in *; tauto). cbn [rev]. now rewrite <- app_assoc.
Qed.
Theorem C77_split : forall url names,
  names <> [] -> ~ In 125%N url -> (forall n, In n names -> ~ In 47%N n /\ ~ In 123%N n /\ ~ In 125%N n) ->
  split_path (qualified url names) = map (fun n => u "{" ++ url ++ u "}" ++ n) names.
Proof.
  intros url names H0 Hu Hn. unfold split_path, qualified.
  assert (G : forall n s, In n names -> split_path_go false [] ((u "{" ++ url ++ u "}" ++ n) ++ s)
     = split_path_go false (rev (u "{" ++ url ++ u "}" ++ n)) s).
  { intros n s Hin. destruct (Hn n Hin) as (A & B & C).
    change ((u "{" ++ url ++ u "}" ++ n) ++ s) with (123%N :: (url ++ u "}" ++ n) ++ s). cbn [split_path_go].
    change (N.eqb 123 47 && negb false) with false. change (N.eqb 123 123) with true. cbv iota.
    rewrite <- (app_assoc url). rewrite split_in by auto. change ((u "}" ++ n) ++ s) with (125%N :: (n ++ s)). cbn [split_path_go].
    change (N.eqb 125 47 && negb true) with false. change (N.eqb 125 123) with false. change (N.eqb 125 125) with true. cbv iota.
    rewrite split_out by auto. f_equal. rewrite !rev_app_distr. cbn [rev u app]. rewrite <- !app_assoc. reflexivity. }
  induction names as [|n names IH]; [easy|]. clear H0. destruct names as [|n' names].
  - cbn [map join_path]. specialize (G n [] (or_introl eq_refl)). rewrite app_nil_r in G. rewrite G. cbn [split_path_go]. now rewrite rev_involutive.
  - change (join_path (map (fun n0 => u "{" ++ url ++ u "}" ++ n0) (n :: n' :: names)))
      with ((u "{" ++ url ++ u "}" ++ n) ++ u "/" ++ join_path (map (fun n0 => u "{" ++ url ++ u "}" ++ n0) (n' :: names))).
    rewrite G by now left. change (u "/" ++ ?x) with (47%N :: x). cbn [split_path_go]. change (N.eqb 47 47 && negb false) with true. cbv iota.
    rewrite rev_involutive. rewrite IH; [reflexivity|discriminate| |].
    + intros n0 H. apply Hn. now right.
    + intros n0 s H. apply G. now right.
Qed.
Lemma resolve_no_colon wd p repl s : forall prev, ~ In 58%N s -> resolve_go wd (p ++ u ":") repl 0 prev s = s.
Proof.
  induction s as [|c s IH]; intros prev H; [reflexivity|]. cbn [resolve_go].
  destruct (starts_with (p ++ u ":") (c :: s)) eqn:E.
  - exfalso. apply H. apply (starts_with_In _ _ 58%N) in E; [|apply in_app_iff; right; now left].
    destruct E as (a & r & -> & _). apply in_app_iff. right. now left.
  - cbn [andb]. rewrite IH; [reflexivity|]. intros G. apply H. now right.
Qed.
(** Without a colon nothing changes. *)
Theorem C77_plain : forall wd namespaces expr, ~ In 58%N expr -> resolve_namespace wd namespaces expr = expr.
Proof.
  intros wd ns expr H. unfold resolve_namespace. induction ns as [|[p url] ns IH]; [reflexivity|]. cbn [fold_left fst snd].
  rewrite resolve_no_colon; assumption.
Qed.
Example C77_ex :
  resolve_namespace ascii_word TEI_NS_MAP (u "tei:bibl/tei:title[@level=""a""]") = qualified TEI_NS [u "bibl"; u "title[@level=""a""]"] /\
  resolve_namespace ascii_word TEI_NS_MAP (u "atei:bibl/p") = u "atei:bibl/p" /\
  short (u "tei") [u "bibl"; u "title[@level=""a""]"] = u "tei:bibl/tei:title[@level=""a""]".
Proof. repeat split; vm_compute; reflexivity. Qed.
(** the prefix at the end of a longer word is not resolved *)
Theorem C77_inside_word : forall wd p url x rest,
  wd x = true -> (forall c, In c (p ++ u ":") -> c <> x) -> p <> [] -> forallb wd p = true -> ~ In 58%N p -> ~ In 58%N rest ->
  resolve_namespace wd [(p, url)] ([x] ++ p ++ u ":" ++ rest) = [x] ++ p ++ u ":" ++ rest.
Proof.
  intros wd p url x rest Hx Hxp Hp0 Hp Hc Hr. unfold resolve_namespace. cbn [fold_left fst snd app resolve_go].
  assert (E0 : starts_with (p ++ u ":") (x :: p ++ u ":" ++ rest) = false).
  { destruct p as [|c p]; [easy|]. cbn [app starts_with]. rewrite (proj2 (N.eqb_neq c x)); [reflexivity|]. apply Hxp. now left. }
  rewrite E0. cbn [andb]. f_equal. set (pat := p ++ u ":") in *. set (repl := u "{" ++ url ++ u "}").
  (* inside the word every position follows a word character *)
  assert (W : forall q, (exists a, p = a ++ q) -> resolve_go wd pat repl 0 true (q ++ u ":" ++ rest) = q ++ u ":" ++ rest).
  { induction q as [|c q IH]; intros [a Ha].
    - change ([] ++ u ":" ++ rest) with (58%N :: rest). cbn [resolve_go].
      assert (E : starts_with pat (58%N :: rest) = false).
      { unfold pat. destruct p as [|c p]; [easy|]. cbn [app starts_with]. rewrite (proj2 (N.eqb_neq c 58)); [reflexivity|]. intros ->. apply Hc. now left. }
      rewrite E. cbn [andb]. f_equal. now apply resolve_no_colon.
    - cbn [app resolve_go]. assert (Hw : wd c = true). { rewrite forallb_forall in Hp. apply Hp. rewrite Ha. apply in_app_iff. right. now left. }
      rewrite Hw. cbn [xorb]. rewrite andb_false_r. f_equal. apply IH. exists (a ++ [c]). now rewrite <- app_assoc. }
  rewrite Hx. apply W. now exists [].
Qed.

(* ---------------------------------------------------------------- *)
(** ** The mappings of the commands *)
(** names and paths are each different *)
Definition one_to_one (m : list (str * str)) : Prop := NoDup (map fst m) /\ NoDup (map snd m).
Lemma dict_get_NoDup (m : list (str * str)) k p : NoDup (map fst m) -> In (k, p) m -> dict_get k m = Some p.
Proof.
  induction m as [|[k' p'] m IH]; [easy|]. cbn [map fst dict_get In]. intros Hn [H|H].
  - injection H as -> ->. now rewrite streq_refl.
  - inversion Hn as [|? ? Ha Hb]; subst. destruct (streq k k') eqn:E; [|now apply IH]. apply streq_true in E. subst k'.
    exfalso. apply Ha. apply in_map_iff. now exists (k, p).
Qed.
Lemma find_unique (m : list (str * str)) k p : NoDup (map snd m) -> In (k, p) m ->
  find (fun kv => streq (snd kv) p) m = Some (k, p).
Proof.
  induction m as [|[k' p'] m IH]; [easy|]. cbn [map snd find In]. intros Hn [H|H].
  - injection H as -> ->. now rewrite streq_refl.
  - inversion Hn as [|? ? Ha Hb]; subst. destruct (streq p' p) eqn:E; [|now apply IH]. apply streq_true in E. subst p'.
    exfalso. apply Ha. apply in_map_iff. now exists (k, p).
Qed.
Lemma field_of_one (m : list (str * str)) k p : NoDup (map snd m) -> In (k, p) m -> field_of m p = k.
Proof.
  intros Hn Hin. unfold field_of. rewrite (find_unique (rev m) k p); [reflexivity| |now apply -> in_rev].
  rewrite List.map_rev. now apply NoDup_rev.
Qed.
Lemma kept_one m k p : one_to_one m -> In (k, p) m -> k <> [] -> split_path p <> [] -> kept m (Some k).
Proof.
  intros [H1 H2] Hin Hk Hp. unfold kept, tag_path. destruct k as [|c k]; [easy|]. unfold path_of. rewrite (dict_get_NoDup _ _ _ H1 Hin).
  unfold loaded_value. destruct (split_path p) as [|f fs] eqn:E; [easy|]. rewrite <- E, C05_split_join, (field_of_one _ _ _ H2 Hin). reflexivity.
Qed.
Lemma kept_none m p : one_to_one m -> In ([], p) m -> p <> [] -> kept m None.
Proof.
  intros [H1 H2] Hin Hp. unfold kept, tag_path. rewrite (dict_get_NoDup _ _ _ H1 Hin). destruct p as [|c p]; [easy|].
  unfold loaded_value. destruct (split_path (c :: p)) as [|f fs] eqn:E; [reflexivity|]. rewrite <- E, C05_split_join, (field_of_one _ _ _ H2 Hin). reflexivity.
Qed.
Lemma dict_set_new (m : list (str * str)) k p : dict_get k m = None -> dict_set k p m = m ++ [(k, p)].
Proof.
  induction m as [|[k' p'] m IH]; [reflexivity|]. cbn [dict_get dict_set]. destruct (streq k k'); [discriminate|]. intros H. cbn [app]. now rewrite IH.
Qed.
Lemma dict_get_None (m : list (str * str)) k : dict_get k m = None <-> ~ In k (map fst m).
Proof.
  induction m as [|[k' p'] m IH]; [cbn; tauto|]. cbn [dict_get map fst In]. destruct (streq k k') eqn:E.
  - apply streq_true in E. split; [discriminate|]. intros H. exfalso. apply H. left. congruence.
  - rewrite IH. assert (k' <> k) by (intros ->; rewrite streq_refl in E; discriminate). tauto.
Qed.
Lemma NoDup_snoc {A} (l : list A) x : NoDup l -> ~ In x l -> NoDup (l ++ [x]).
Proof. intros H Hx. apply NoDup_rev in H. rewrite <- (rev_involutive (l ++ [x])), rev_app_distr. apply NoDup_rev. constructor; [|exact H]. now rewrite <- in_rev. Qed.
Lemma note_path_inj f g : note_path f = note_path g -> f = g.
Proof. unfold note_path. intros H. apply app_inv_head in H. now apply app_inv_tail in H. Qed.
Lemma extend_keys fields : forall (m : list (str * str)) k, In k (map fst (extend_mapping fields m)) <-> In k (map fst m) \/ In k fields.
Proof.
  induction fields as [|f fields IH]; intros m k; cbn [extend_mapping fold_left In]; [tauto|].
  fold (extend_mapping fields (match dict_get f m with Some _ => m | None => dict_set f (note_path f) m end)). rewrite IH.
  destruct (dict_get f m) as [p|] eqn:E.
  - assert (Hf : In f (map fst m)). { destruct (in_dec (list_eq_dec N.eq_dec) f (map fst m)) as [H|H]; [exact H|]. apply dict_get_None in H. congruence. }
    split; [tauto|]. intros [H|[<-|H]]; tauto.
  - rewrite dict_set_new, map_app, in_app_iff by exact E. cbn. tauto.
Qed.
Lemma extend_paths fields (P : str -> str -> Prop) : forall m : list (str * str), (forall k p, In (k, p) m -> P k p) ->
  (forall f, In f fields -> ~ In f (map fst m) -> P f (note_path f)) ->
  forall k p, In (k, p) (extend_mapping fields m) -> P k p.
Proof.
  induction fields as [|f fields IH]; intros m Hm Hf k p; cbn [extend_mapping fold_left]; [apply Hm|].
  fold (extend_mapping fields (match dict_get f m with Some _ => m | None => dict_set f (note_path f) m end)). apply IH.
  - intros k' p'. destruct (dict_get f m) as [p0|] eqn:E; [apply Hm|]. rewrite dict_set_new, in_app_iff by exact E.
    intros [H|[H|[]]]; [now apply Hm|]. injection H as <- <-. apply Hf; [now left|now apply dict_get_None].
  - intros g Hg Hn. apply Hf; [now right|]. intros H. apply Hn. destruct (dict_get f m) eqn:E; [exact H|].
    rewrite dict_set_new, map_app, in_app_iff by exact E. now left.
Qed.
Lemma extend_one_to_one fields : forall m, one_to_one m ->
  (forall f, In f fields -> dict_get f m = None -> ~ In (note_path f) (map snd m)) -> one_to_one (extend_mapping fields m).
Proof.
  induction fields as [|f fields IH]; intros m Hm Hf; cbn [extend_mapping fold_left]; [exact Hm|].
  fold (extend_mapping fields (match dict_get f m with Some _ => m | None => dict_set f (note_path f) m end)).
  destruct (dict_get f m) as [p|] eqn:E.
  - apply IH; [exact Hm|]. intros g Hg. apply Hf. now right.
  - rewrite dict_set_new by exact E. destruct Hm as [H1 H2]. apply IH.
    + split; rewrite map_app; apply NoDup_snoc; auto; cbn [fst snd].
      * now apply dict_get_None.
      * apply Hf; [now left|exact E].
    + intros g Hg Eg. apply dict_get_None in Eg. rewrite map_app in *. rewrite in_app_iff in *. cbn [map fst snd In] in *.
      intros [H|[H|[]]].
      * apply (Hf g); [now right| |exact H]. apply dict_get_None. tauto.
      * apply note_path_inj in H. subst g. tauto.
Qed.
Lemma resolve_ascii wd ns (m : list (str * str)) : ascii_right wd -> Forall (fun p => Forall (fun c => (c < 128)%N) (snd p)) m ->
  length ns <= 1 -> resolve_mapping wd ns m = resolve_mapping ascii_word ns m.
Proof.
  intros Hw H Hl. unfold resolve_mapping. apply map_ext_in. intros [k p] Hin. cbn [fst snd]. f_equal.
  rewrite Forall_forall in H. specialize (H _ Hin). cbn [snd] in H. rewrite Forall_forall in H.
  destruct ns as [|[q url] [|? ?]]; [reflexivity| |cbn in Hl; lia]. unfold resolve_namespace. cbn [fold_left fst snd].
  apply resolve_go_ext. intros c Hc. apply Hw. now apply H.
Qed.
Lemma resolved_ascii wd c : ascii_right wd -> resolved_mapping wd c = resolved_mapping ascii_word c.
Proof.
  intros H. apply resolve_ascii; [exact H| |destruct c; cbn; lia].
  assert (E : forallb (fun p => forallb (fun c => N.ltb c 128) (snd p)) (base_mapping c) = true) by (destruct c; vm_compute; reflexivity).
  rewrite forallb_forall in E. apply Forall_forall. intros p Hp. specialize (E p Hp). rewrite forallb_forall in E. apply Forall_forall.
  intros x Hx. apply N.ltb_lt. now apply E.
Qed.
(** boolean checks for the fixed mappings *)
Fixpoint nodupb (l : list str) : bool := match l with [] => true | x :: l' => negb (mem x l') && nodupb l' end.
Lemma nodupb_ok l : nodupb l = true -> NoDup l.
Proof.
  induction l as [|x l IH]; [constructor|]. cbn [nodupb]. intros H. apply andb_true_iff in H as [H1 H2]. constructor; [|auto].
  intros Hin. apply mem_In in Hin. rewrite Hin in H1. discriminate.
Qed.
Lemma resolved_one_to_one wd c : ascii_right wd -> c <> CSegmentation -> one_to_one (resolved_mapping wd c).
Proof.
  intros Hw Hc. rewrite resolved_ascii by exact Hw. split; apply nodupb_ok; destruct c; try easy; vm_compute; reflexivity.
Qed.
Definition noted (p : str) : bool := starts_with (u "note[@type=""") p.
Lemma note_free wd c f : ascii_right wd -> c <> CSegmentation ->
  (f = u "other" -> c = CReference \/ c = CAffiliation) ->
  dict_get f (resolved_mapping wd c) = None -> ~ In (note_path f) (map snd (resolved_mapping wd c)).
Proof.
  intros Hw Hc Ho E Hin. rewrite resolved_ascii in * by exact Hw.
  assert (Hn : noted (note_path f) = true) by reflexivity.
  assert (Hin' : In (note_path f) (filter noted (map snd (resolved_mapping ascii_word c)))) by (apply filter_In; auto).
  assert (Hcase : note_path f = note_path (u "other") \/ note_path f = note_path (u "line_no") /\ c = CHeader).
  { destruct c; try easy; vm_compute in Hin';
      repeat match goal with H : _ \/ _ |- _ => destruct H as [H|H] | H : False |- _ => destruct H end;
      first [left; exact (eq_sym Hin')|right; split; [exact (eq_sym Hin')|reflexivity]]. }
  destruct Hcase as [H|[H ->]]; apply note_path_inj in H; subst f.
  - destruct (Ho eq_refl) as [-> | ->]; vm_compute in Hin'; destruct Hin'.
  - discriminate E.
Qed.
Lemma command_one_to_one wd c fields : ascii_right wd -> c <> CSegmentation ->
  (In (u "other") fields -> c = CReference \/ c = CAffiliation) -> one_to_one (command_mapping wd c fields).
Proof.
  intros Hw Hc Ho. assert (H : one_to_one (extend_mapping fields (resolved_mapping wd c))).
  { apply extend_one_to_one; [now apply resolved_one_to_one|]. intros f Hf. apply note_free; auto. intros ->. auto. }
  destruct c; try exact H. easy.
Qed.
Lemma command_paths wd c fields k p : ascii_right wd -> In (k, p) (command_mapping wd c fields) -> p <> [].
Proof.
  intros Hw. assert (Hb : forall k p, In (k, p) (resolved_mapping wd c) -> p <> []).
  { intros k' p' H. rewrite resolved_ascii in H by exact Hw.
    assert (E : forallb (fun kv => match snd kv with [] => false | _ => true end) (resolved_mapping ascii_word c) = true) by (destruct c; vm_compute; reflexivity).
    rewrite forallb_forall in E. specialize (E _ H). cbn [snd] in E. now destruct p'. }
  assert (H : In (k, p) (extend_mapping fields (resolved_mapping wd c)) -> p <> []).
  { intros H. revert H. apply (extend_paths fields (fun _ p => p <> [])); [exact Hb|]. discriminate. }
  destruct c; try exact H. apply Hb.
Qed.
Lemma split_path_go_nonempty inb s : forall cur, split_path_go inb cur s <> [].
Proof. revert inb. induction s as [|c s IH]; intros inb cur; cbn [split_path_go]; [discriminate|]. destruct (N.eqb c 47 && negb inb); [discriminate|apply IH]. Qed.
Lemma command_keys wd c fields k : c <> CSegmentation ->
  (In k (map fst (command_mapping wd c fields)) <-> In k (map fst (base_mapping c)) \/ In k fields).
Proof.
  intros Hc. assert (E : command_mapping wd c fields = extend_mapping fields (resolved_mapping wd c)) by (destruct c; easy).
  rewrite E, extend_keys. unfold resolved_mapping, resolve_mapping. rewrite map_map. cbn [fst]. reflexivity.
Qed.

(** What a command saves, it loads again: the element of each of its tags (and of
    untagged text) is loaded as that tag (as untagged). *)
Theorem C78_kept : forall wd c fields v,
  ascii_right wd -> c <> CSegmentation -> (In (u "other") fields -> c = CReference \/ c = CAffiliation) ->
  v = None \/ (exists f, v = Some f /\ f <> [] /\ (In f (map fst (base_mapping c)) \/ In f fields)) ->
  kept (command_mapping wd c fields) v.
Proof.
  intros wd c fields v Hw Hc Ho Hv. pose proof (command_one_to_one wd c fields Hw Hc Ho) as H1.
  assert (G : forall k, In k (map fst (base_mapping c)) \/ In k fields -> exists p, In (k, p) (command_mapping wd c fields) /\ p <> []).
  { intros k Hk. apply (command_keys wd c fields k Hc) in Hk. apply in_map_iff in Hk as ([k' p] & E & Hin). cbn [fst] in E. subst k'.
    exists p. split; [exact Hin|]. now apply command_paths in Hin. }
  destruct Hv as [-> |(f & -> & Hf & Hin)].
  - destruct (G []) as (p & Hp & Hne); [left; destruct c; left; reflexivity|]. now apply (kept_none _ p).
  - destruct (G f Hin) as (p & Hp & Hne). apply (kept_one _ f p); auto. apply split_path_go_nonempty.
Qed.
(** Different tags of a command have different elements. *)
Theorem C78_distinct : forall wd c fields v w,
  ascii_right wd -> c <> CSegmentation -> (In (u "other") fields -> c = CReference \/ c = CAffiliation) ->
  v = None \/ (exists f, v = Some f /\ f <> [] /\ (In f (map fst (base_mapping c)) \/ In f fields)) ->
  w = None \/ (exists f, w = Some f /\ f <> [] /\ (In f (map fst (base_mapping c)) \/ In f fields)) ->
  tag_path (command_mapping wd c fields) v = tag_path (command_mapping wd c fields) w -> v = w.
Proof.
  intros wd c fields v w Hw Hc Ho Hv Hv' E. pose proof (C78_kept wd c fields v Hw Hc Ho Hv) as A. pose proof (C78_kept wd c fields w Hw Hc Ho Hv') as B.
  unfold kept in *. congruence.
Qed.
(** The mapping of the command for segmentation gives untagged text and the tag body the same element. *)
Theorem C78_segmentation_refuted : exists fields v, v = None /\ ~ kept (command_mapping ascii_word CSegmentation fields) v.
Proof. exists [], None. split; [reflexivity|]. intros H. discriminate H. Qed.
Theorem C78_segmentation : forall wd fields f, ascii_right wd -> f <> [] -> In f (map fst segmentation_mapping) ->
  kept (command_mapping wd CSegmentation fields) (Some f).
Proof.
  intros wd fields f Hw Hf Hin. unfold command_mapping. rewrite resolved_ascii by exact Hw.
  cbn [map segmentation_mapping fst In] in Hin.
  repeat match goal with H : _ \/ _ |- _ => destruct H as [<-|H] | H : False |- _ => destruct H end; try easy; vm_compute; reflexivity.
Qed.
(** A field "other" has the element of untagged text. *)
Theorem C78_other_refuted : exists fields f, In f fields /\ f <> [] /\
  ~ kept (command_mapping ascii_word CHeader fields) None.
Proof. exists [u "other"], (u "other"). split; [now left|]. split; [discriminate|]. intros H. vm_compute in H. discriminate H. Qed.
Example C78_ex :
  command_mapping ascii_word CReferenceSegmenter [u "reference"; u "page"] =
    [([], u "note[@type=""other""]"); (u "reference", u "listBibl/bibl"); (u "reference-label", u "listBibl/bibl/label"); (u "page", u "note[@type=""page""]")] /\
  tag_path (command_mapping ascii_word CReference []) (Some (u "reference-year")) = [tei "bibl"; tei "date"] /\
  loaded_value (command_mapping ascii_word CReference []) [tei "bibl"; tei "date"] = Some (u "reference-year") /\
  ascii_right ascii_word.
Proof. repeat split; vm_compute; reflexivity. Qed.
(** The notes for further fields of references lie outside of the namespace. *)
Example C78_note_ex :
  tag_path (command_mapping ascii_word CReference [u "page"]) (Some (u "page")) = [u "note[@type=""page""]"] /\
  tag_path (command_mapping ascii_word CReference [u "page"]) None = [tei "note[@type=""other""]"].
Proof. split; vm_compute; reflexivity. Qed.

Print Assumptions C77_qualified.
Print Assumptions C77_split.
Print Assumptions C77_plain.
Print Assumptions C77_inside_word.
Print Assumptions C78_kept.
Print Assumptions C78_distinct.
Print Assumptions C78_segmentation.
Print Assumptions C78_segmentation_refuted.
Print Assumptions C78_other_refuted.
