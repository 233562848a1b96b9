(** Lemmas about saving and loading again. *)
From Verif Require Import Base ModelTags ModelTokenize ModelXml ModelTei ProofXml ProofTags
  ProofTokenize SpecTeiRead ProofTeiRead ProofTeiLoad PropTokenize PropTeiRead SpecTeiWrite ProofTeiWrite ProofTeiSave PropTeiWrite.

(* ---------------------------------------------------------------- *)
(** saved trees can be loaded *)

Definition node_fine (e : xml) : bool :=
  match e with
  | Elem n a _ _ _ => match n with [] => false | _ => true end && Nat.leb (length a) 1
  | Misc _ => false
  end.
Fixpoint fine (e : xml) : bool :=
  match e with
  | Elem _ _ _ cs _ => forallb (fun c => node_fine c && fine c) cs
  | Misc _ => false
  end.
Lemma fine_loadable : forall e, fine e = true -> loadable e = true.
Proof.
  induction e as [n a t cs tl IH|tl] using xml_ind'; [|discriminate].
  cbn [fine loadable]. rewrite !forallb_forall. intros H c Hc. specialize (H c Hc).
  apply andb_true_iff in H as [H1 H2]. apply andb_true_iff. split.
  - destruct c; [|discriminate]. cbn in H1. apply andb_true_iff in H1. tauto.
  - rewrite Forall_forall in IH. auto.
Qed.
Lemma fine_named : forall e, fine e = true ->
  match e with Elem n _ _ _ _ => n <> [] | _ => True end -> named e = true.
Proof.
  induction e as [n a t cs tl IH|tl] using xml_ind'; [|discriminate].
  intros H Hn. cbn [named]. apply andb_true_iff. split; [destruct n; [congruence|reflexivity]|].
  cbn [fine] in H. rewrite forallb_forall in H. apply forallb_forall. intros c Hc. specialize (H c Hc).
  apply andb_true_iff in H as [H1 H2]. rewrite Forall_forall in IH. apply IH; auto.
  destruct c as [cn ca ct cc ctl|]; [|exact I]. cbn in H1. now destruct cn.
Qed.

Section Nodes.
Variable sp : N -> bool.
Variable node_ok : str -> list (str * str) -> bool.
Variable mapping : list (str * str).
Lemma created_fine f na : create_node node_ok f = Ok na ->
  fst na <> [] /\ length (snd na) <= 1.
Proof.
  unfold create_node. destruct (parse_tag_expression f) as [x|] eqn:E; [|discriminate]. cbn [bind].
  destruct (node_ok _ _); [|discriminate]. intros H. injection H as <-.
  unfold parse_tag_expression in E. destruct (span _ f) as [name rest].
  destruct name as [|c name]; [discriminate|].
  destruct rest as [|d rest]; [injection E as <-; cbn; split; [discriminate|lia]|].
  match type of E with match ?m with Some _ => _ | None => _ end = _ => destruct m; [|discriminate] end.
  injection E as <-. cbn. split; [discriminate|lia].
Qed.

Definition kid_fine (c : xml) : bool := node_fine c && fine c.
Definition fine_frame (f : frame) : Prop := forallb kid_fine (f_kids f) = true.
Definition ok_frame (f : frame) : Prop := f_name f <> [] /\ length (f_attrib f) <= 1.
Variable name : str.
Fixpoint bottom (cur : frame) (ups : list frame) : Prop :=
  match ups with [] => f_name cur = name /\ f_attrib cur = [] | p :: ups' => bottom p ups' end.
Lemma bottom_ext f g ups : f_name f = f_name g -> f_attrib f = f_attrib g -> bottom f ups -> bottom g ups.
Proof. intros H1 H2. destruct ups; [|auto]. cbn. now rewrite H1, H2. Qed.
Definition fine_stack (cur : frame) (ups : list frame) : Prop :=
  bottom cur ups /\ fine_frame cur /\ Forall fine_frame ups /\
  (match ups with [] => True | _ => ok_frame cur /\ Forall ok_frame (removelast ups) end).
Lemma fine_close p cur : fine_frame p -> fine_frame cur -> ok_frame cur -> fine_frame (add_kid p (close cur)).
Proof.
  intros Hp Hc [Hn Ha]. unfold fine_frame. cbn [add_kid f_kids]. rewrite forallb_app, Hp. cbn [forallb].
  unfold kid_fine, close. cbn [node_fine fine]. unfold fine_frame in Hc. unfold kid_fine in Hc. rewrite Hc.
  destruct (f_name cur); [congruence|]. apply Nat.leb_le in Ha. now rewrite Ha.
Qed.
Lemma climb_fine n : forall cur ups cu, fine_stack cur ups -> climb n cur ups = Ok cu -> fine_stack (fst cu) (snd cu).
Proof.
  induction n as [|n IH]; intros cur ups cu Ht H; cbn in H.
  - injection H as <-. exact Ht.
  - destruct ups as [|p ups]; [discriminate|]. apply IH in H; [exact H|].
    destruct Ht as (T0 & T1 & T2 & T3 & T4). inversion T2; subst.
    split; [eapply bottom_ext; [| |exact T0]; reflexivity|].
    split; [now apply fine_close|]. split; [assumption|].
    destruct ups as [|q ups]; [auto|].
    change (removelast (p :: q :: ups)) with (p :: removelast (q :: ups)) in T4.
    inversion T4; subst. split; assumption.
Qed.
Lemma descend_fine frags : forall cur ups cu, fine_stack cur ups ->
  descend node_ok frags cur ups = Ok cu -> fine_stack (fst cu) (snd cu).
Proof.
  induction frags as [|f frags IH]; intros cur ups cu Ht H; cbn in H.
  - injection H as <-. exact Ht.
  - destruct (create_node node_ok f) as [na|] eqn:E; [|discriminate]. cbn [bind] in H.
    eapply IH; [|exact H].
    destruct Ht as (T0 & T1 & T2 & T3). split; [exact T0|]. split; [reflexivity|]. split; [now constructor|].
    split; [exact (created_fine _ _ E)|]. destruct ups as [|q ups]; [constructor|]. destruct T3 as [T3 T4].
    change (removelast (cur :: q :: ups)) with (cur :: removelast (q :: ups)). now constructor.
Qed.
Definition fine_w (w : writer) : Prop := fine_stack (w_cur w) (w_up w).
Lemma require_fine w req w' : fine_w w -> require_path node_ok w req = Ok w' -> fine_w w'.
Proof.
  unfold require_path. intros Ht H. destruct (path_eqb _ _).
  - injection H as <-. exact Ht.
  - destruct (climb _ _ _) as [cu|] eqn:E1; [|discriminate]. cbn [bind] in H.
    destruct (descend _ _ _) as [cu'|] eqn:E2; [|discriminate]. cbn [bind] in H. injection H as <-.
    apply (climb_fine _ _ _ _ Ht) in E1. eapply descend_fine; [exact E1|exact E2].
Qed.
Lemma kid_fine_add_tail c t : kid_fine (add_tail c t) = kid_fine c.
Proof. destruct c; reflexivity. Qed.
Lemma append_text_fine w t : fine_w w -> fine_w (w_append_text w t).
Proof.
  intros (T0 & T1 & T2 & T3). unfold fine_w. cbn [w_append_text w_cur w_up].
  assert (Hn : f_name (frame_append_text (w_cur w) t) = f_name (w_cur w) /\
               f_attrib (frame_append_text (w_cur w) t) = f_attrib (w_cur w)).
  { unfold frame_append_text. destruct (f_kids (w_cur w)); auto. }
  split; [destruct Hn as [Hn1 Hn2]; eapply bottom_ext; [symmetry; exact Hn1|symmetry; exact Hn2|exact T0]|].
  split; [|split; [exact T2|]].
  - unfold fine_frame, frame_append_text in *. destruct (f_kids (w_cur w)) as [|k ks] eqn:E; [reflexivity|].
    cbn [f_kids]. revert T1. clear. generalize (k :: ks) as l. induction l as [|c l IH]; [auto|].
    destruct l as [|c' l].
    + cbn [forallb add_last_tail]. now rewrite kid_fine_add_tail.
    + change (add_last_tail (c :: c' :: l) t) with (c :: add_last_tail (c' :: l) t).
      cbn [forallb] in *. rewrite !andb_true_iff in *. intros [H1 H2]. split; [exact H1|].
      apply IH. exact H2.
  - destruct (w_up w); [exact I|]. unfold ok_frame in *. destruct Hn as [-> ->]. exact T3.
Qed.
Lemma append_lb_fine w : fine_w w -> fine_w (w_append w lb_elem).
Proof.
  intros (T0 & T1 & T2 & T3). unfold fine_w.
  split; [eapply bottom_ext; [| |exact T0]; reflexivity|]. split; [|auto].
  unfold fine_frame in *. cbn [w_append w_cur add_kid f_kids]. rewrite forallb_app, T1. reflexivity.
Qed.
Lemma pending_fine req pend : forall w w', fine_w w -> write_pending node_ok req w pend = Ok w' -> fine_w w'.
Proof.
  unfold write_pending. induction pend as [|p pend IH]; intros w w' Ht H.
  - injection H as <-. exact Ht.
  - cbn [foldM] in H. destruct (require_path_or_below node_ok w req) as [w1|] eqn:E; [|discriminate]. cbn [bind] in H.
    eapply IH; [|exact H]. apply append_text_fine. eapply require_fine; [exact Ht|exact E].
Qed.
Lemma step_fine s o s' : fine_w (s_w s) -> step node_ok sp mapping s o = Ok s' -> fine_w (s_w s').
Proof.
  intros Ht H. destruct o as [t|]; [|injection H as <-; now apply append_lb_fine].
  cbn [step] in H. unfold write_token in H.
  destruct (split_tag_prefix (main_full_tag t)) as [mp mv]. cbv zeta in H.
  destruct (is_space sp t) eqn:Et; [injection H as <-; exact Ht|].
  match type of H with bind ?x _ = _ => destruct x as [w1|] eqn:E1; [|discriminate] end. cbn [bind] in H.
  destruct (write_pending _ _ _ _) as [w2|] eqn:E2; [|discriminate]. cbn [bind] in H.
  destruct (require_path _ w2 _) as [w3|] eqn:E3; [|discriminate]. cbn [bind] in H.
  injection H as <-. cbn [s_w]. apply append_text_fine. eapply require_fine; [|exact E3].
  eapply pending_fine; [|exact E2].
  destruct (is_b mp); [eapply require_fine; eassumption|].
  destruct (omem mv (s_reset s)); [eapply require_fine; eassumption|].
  destruct (is_b _); [eapply require_fine; eassumption|].
  injection E1 as <-. exact Ht.
Qed.
Lemma steps_fine items : forall s s', fine_w (s_w s) ->
  foldM (step node_ok sp mapping) s items = Ok s' -> fine_w (s_w s').
Proof.
  induction items as [|o items IH]; intros s s' Ht H.
  - injection H as <-. exact Ht.
  - cbn [foldM] in H. destruct (step node_ok sp mapping s o) as [s1|] eqn:E; [|discriminate]. cbn [bind] in H.
    eapply IH; [|exact H]. eapply step_fine; [exact Ht|exact E].
Qed.
Lemma lines_to_tei_fine ls r :
  lines_to_tei sp node_ok mapping name ls = Ok r ->
  fine r = true /\ exists text cs, r = Elem name [] text cs [].
Proof.
  intros H. unfold lines_to_tei in H. fold (start name) in H. rewrite write_lines_steps in H.
  destruct (foldM _ _ _) as [s|] eqn:E1; [|discriminate]. cbn [bind] in H.
  destruct (write_pending node_ok [] (s_w s) (s_pend s)) as [w|] eqn:E2; [|discriminate]. cbn [bind] in H.
  destruct (climb _ _ _) as [cu|] eqn:E3; [|discriminate]. cbn [bind] in H. injection H as <-.
  assert (T0 : fine_w (s_w (start name))) by (repeat split; constructor).
  apply (steps_fine _ _ _ T0) in E1. apply (pending_fine _ _ _ _ E1) in E2.
  assert (L : snd cu = []).
  { assert (forall n cur ups c, climb n cur ups = Ok c -> n + length (snd c) = length ups) as HL.
    { induction n as [|n IH]; intros cur ups c Hc; cbn in Hc; [injection Hc as <-; reflexivity|].
      destruct ups; [discriminate|]. apply IH in Hc. cbn. lia. }
    apply HL in E3. destruct (snd cu); [reflexivity|cbn in E3; lia]. }
  apply (climb_fine _ _ _ _ E2) in E3. rewrite L in E3. destruct E3 as ([T1 T2] & T & _).
  split; [exact T|]. unfold close. rewrite T1, T2. eauto.
Qed.
End Nodes.

(* ---------------------------------------------------------------- *)
(** characters and line breaks with the values of the loaded tags *)
Section Chars.
Variables sp wd up lo : N -> bool.
Variable rp : list str.

Definition ochars (v : ostr) (o : option str) : list (option (N * ostr)) :=
  match o with Some s => map (fun c => Some (c, v)) s | None => [None] end.
Definition item_chars (i : item) : list (option (N * ostr)) :=
  match i with
  | ITok s t => map (fun c => Some (c, option_map (skipn 2) t)) s
  | ILb => [None]
  end.
Definition inked (o : option (N * ostr)) : bool :=
  match o with Some (c, _) => negb (sp c) | None => true end.

Lemma chars_untagged l : flat_map item_chars (untagged l) = flat_map (ochars None) l.
Proof. induction l as [|[s|] l IH]; cbn; [reflexivity| |]; now rewrite <- IH. Qed.
Lemma chars_with_tag p v l : length p = 2 ->
  flat_map item_chars (with_tag (p ++ v) l) = flat_map (ochars (Some v)) l.
Proof.
  intros Hp. destruct p as [|a [|b [|]]]; try discriminate.
  induction l as [|[s|] l IH]; cbn; [reflexivity| |]; now rewrite <- IH.
Qed.
Lemma chars_entity v l : flat_map item_chars (entity v l) = flat_map (ochars (Some v)) l.
Proof.
  induction l as [|[s|] l IH]; [reflexivity| |].
  - cbn [entity flat_map]. rewrite chars_with_tag by reflexivity. reflexivity.
  - cbn [entity flat_map]. now rewrite IH.
Qed.
Lemma chars_toks v s : flat_map (ochars v) (toks wd up lo s) = map (fun c => Some (c, v)) s.
Proof.
  unfold toks. transitivity (map (fun c => Some (c, v)) (concat (tokenize_text wd up lo s))).
  - induction (tokenize_text wd up lo s) as [|t l IH]; [reflexivity|]. cbn [map flat_map concat].
    rewrite IH, map_app. reflexivity.
  - now rewrite (C02_concat wd up lo s).
Qed.

(** value given to the text at an address: path of the outermost mapped element *)
Definition node_expr (x : node) : str :=
  match x with
  | (n, []) => n
  | (n, [(k, v)]) => n ++ u "[@" ++ k ++ u "=""" ++ v ++ u """]"
  | _ => []
  end.
Definition exprs (a : addr) : list str := map (fun x => node_expr (snd x)) a.
Definition inits {A} (l : list A) : list (list A) := map (fun n => firstn n l) (seq 1 (length l)).
Definition T (a : addr) : ostr :=
  find (fun s => mem s rp) (map join_path (inits (exprs a))).
Definition root (a : addr) : bool := mem (join_path (exprs a)) rp.

Lemma expr_node c : node_fine c = true -> expr c = node_expr (node_of c).
Proof.
  destruct c as [n a t cs tl|]; [|discriminate]. unfold expr. cbn [node_fine]. rewrite andb_true_iff.
  intros [_ H]. destruct a as [|[k v] [|]]; try discriminate; reflexivity.
Qed.

Lemma find_app {A} (f : A -> bool) l1 l2 : find f (l1 ++ l2) =
  match find f l1 with Some x => Some x | None => find f l2 end.
Proof. induction l1 as [|a l1 IH]; cbn; [reflexivity|]. destruct (f a); auto. Qed.
Lemma find_none {A} (f : A -> bool) l : (forall x, In x l -> f x = false) -> find f l = None.
Proof.
  induction l as [|a l IH]; cbn; [reflexivity|]. intros H. rewrite (H a (or_introl eq_refl)).
  apply IH. intros x Hx. apply H. now right.
Qed.
Lemma inits_app {A} (a b : list A) : inits (a ++ b) = inits a ++ map (fun x => a ++ x) (inits b).
Proof.
  unfold inits. rewrite app_length, seq_app, map_app. f_equal.
  - apply map_ext_in. intros n Hn. apply in_seq in Hn. rewrite firstn_app.
    replace (n - length a) with 0 by lia. now rewrite firstn_O, app_nil_r.
  - rewrite map_map. rewrite Nat.add_comm. 
    change (seq (length a + 1) (length b)) with (seq (length a + 1) (length b)).
    assert (E : seq (length a + 1) (length b) = map (fun n => length a + n) (seq 1 (length b))).
    { generalize 1. generalize (length b). intros n. induction n as [|n IH]; intros k; [reflexivity|].
      cbn [seq map]. f_equal. rewrite <- IH. now rewrite Nat.add_succ_r. }
    rewrite E, map_map. apply map_ext_in. intros n Hn. rewrite firstn_app.
    replace (length a + n - length a) with n by lia. f_equal. apply firstn_all2. lia.
Qed.
Lemma inits_snoc {A} (a : list A) x : inits (a ++ [x]) = inits a ++ [a ++ [x]].
Proof. now rewrite inits_app. Qed.

(** nothing above [a] is mapped *)
Definition clear_above (a : addr) : Prop := forall b, prefix b a -> b <> [] -> b <> a -> root b = false.

Lemma T_inits a : T a = find (fun s => mem s rp) (map (fun b => join_path (exprs b)) (inits a)).
Proof.
  unfold T. f_equal. unfold inits, exprs. rewrite !map_map, map_length.
  apply map_ext. intros n. now rewrite firstn_map.
Qed.
Lemma T_at a b : prefix a b -> a <> [] -> clear_above a -> root a = true -> T b = Some (join_path (exprs a)).
Proof.
  intros [c ->] Ha Hc Hr. rewrite T_inits, inits_app, map_app, find_app.
  destruct (exists_last Ha) as (a0 & x & ->). rewrite inits_snoc, map_app, find_app.
  rewrite find_none.
  - cbn. unfold root in Hr. now rewrite Hr.
  - intros s Hs. apply in_map_iff in Hs as (b & <- & Hb). unfold inits in Hb.
    apply in_map_iff in Hb as (n & <- & Hn). apply in_seq in Hn.
    apply (Hc (firstn n a0)).
    + exists (skipn n a0 ++ [x]). now rewrite app_assoc, firstn_skipn.
    + intros E. apply (f_equal (@length _)) in E. rewrite firstn_length in E. cbn in E. lia.
    + intros E. apply (f_equal (@length _)) in E. rewrite firstn_length, app_length in E. cbn in E. lia.
Qed.
Lemma T_none a : clear_above a -> root a = false -> a <> [] -> T a = None.
Proof.
  intros Hc Hr Ha. rewrite T_inits. apply find_none. intros s Hs.
  apply in_map_iff in Hs as (b & <- & Hb). unfold inits in Hb.
  apply in_map_iff in Hb as (n & <- & Hn). apply in_seq in Hn.
  destruct (Nat.eq_dec n (length a)) as [->|Hne].
  - rewrite firstn_all. exact Hr.
  - apply (Hc (firstn n a)); [apply prefix_firstn_self| |];
      intros E; apply (f_equal (@length _)) in E; rewrite firstn_length in E; cbn in E; lia.
Qed.

Definition pv (p : piece) : option (N * ostr) := match p with PChar a c => Some (c, T a) | PLb _ => None end.
Lemma pv_chars a s : map pv (map (PChar a) s) = map (fun c => Some (c, T a)) s.
Proof. now rewrite map_map. Qed.

Lemma break_empty c : is_break c = true -> inner wd up lo c = [] /\ lb_of c = [None].
Proof.
  destruct c as [n [|] [|] [|] tl|]; try discriminate. intros H. cbn [is_break] in H. split; [reflexivity|].
  unfold lb_of. cbn [is_lb]. change LB with (u "lb"). now rewrite H.
Qed.
Lemma tidy_kid c cs : forallb (fun c => if is_lb c then is_break c else tidy c) (c :: cs) = true ->
  (is_lb c = true /\ is_break c = true \/ is_lb c = false /\ is_break c = false /\ tidy c = true) /\
  forallb (fun c => if is_lb c then is_break c else tidy c) cs = true.
Proof.
  cbn [forallb]. rewrite andb_true_iff. intros [H1 H2]. split; [|exact H2].
  destruct (is_lb c) eqn:E; [now left|]. right. split; [reflexivity|]. split; [|exact H1].
  destruct (is_break c) eqn:E2; [|reflexivity]. apply break_is_lb in E2. congruence.
Qed.

Lemma inner_flat v : forall e a, tidy e = true -> (forall b, prefix a b -> T b = v) ->
  flat_map (ochars v) (inner wd up lo e) = map pv (flat a e).
Proof.
  induction e as [n at_ t cs tl IH|tl] using xml_ind'; intros a Ht HT; [|reflexivity].
  rewrite flat_eq, map_app, pv_chars, (HT a (prefix_refl a)). cbn [inner]. rewrite flat_map_app, chars_toks.
  f_equal. cbn [tidy] in Ht. generalize 0. induction IH as [|c cs Hc HF IHc]; intros i; [reflexivity|].
  apply tidy_kid in Ht as [Hk Ht]. cbn [flat_map flat_kids]. rewrite !flat_map_app, !map_app, chars_toks, pv_chars,
    (HT a (prefix_refl a)), (IHc Ht (S i)). rewrite <- !app_assoc.
  destruct Hk as [[Hl Hb]|(Hl & Hb & Htc)]; rewrite Hb.
  - destruct (break_empty c Hb) as [-> ->]. reflexivity.
  - unfold lb_of. rewrite Hl. cbn [flat_map app]. f_equal. apply Hc; [exact Htc|].
    intros b Hb'. apply HT. eapply prefix_trans; [|exact Hb']. now exists [(i, node_of c)].
Qed.

Lemma filter_blank v s : blank sp s = true -> filter inked (map (fun c => Some (c, v)) s) = [].
Proof.
  induction s as [|c s IH]; [reflexivity|]. cbn [blank forallb]. rewrite andb_true_iff. intros [H1 H2].
  cbn [map filter inked]. rewrite H1. cbn. now apply IH.
Qed.
Lemma nonblank_char s : blank sp s = false -> exists c, In c s /\ sp c = false.
Proof.
  induction s as [|c s IH]; [discriminate|]. cbn [blank forallb]. rewrite andb_false_iff. intros [H|H].
  - exists c. split; [now left|exact H].
  - destruct (IH H) as (d & Hd & Hs). exists d. split; [now right|exact Hs].
Qed.

Lemma flat_kids_in a : forall cs i c, In c cs -> exists j, incl
  ((if is_break c then [PLb a] else flat (a ++ [(j, node_of c)]) c) ++ map (PChar a) (xtail c)) (flat_kids a i cs).
Proof.
  induction cs as [|d cs IH]; intros i c Hin; [destruct Hin|]. destruct Hin as [->|Hc].
  - exists i. cbn [flat_kids]. rewrite app_assoc. now apply incl_appl.
  - destruct (IH (S i) c Hc) as [j Hj]. exists j. cbn [flat_kids]. apply incl_appr, incl_appr. exact Hj.
Qed.

Lemma tagged_flat : forall e a, a <> [] -> tidy e = true -> fine e = true -> clear_above a ->
  (forall b c, In (PChar b c) (flat a e) -> sp c = false -> T b <> None) ->
  filter inked (flat_map item_chars (tagged_items sp wd up lo rp (exprs a) e)) = filter inked (map pv (flat a e)).
Proof.
  induction e as [n at_ t cs tl IH|tl] using xml_ind'; intros a Ha Ht Hf Hc HT; [|reflexivity].
  destruct (root a) eqn:Hr.
  - (* mapped *)
    assert (E : is_entity sp rp (exprs a) (Elem n at_ t cs tl) = true).
    { cbn [is_entity]. unfold root in Hr. rewrite Hr. apply orb_true_r. }
    cbn [tagged_items]. rewrite E, chars_entity. f_equal. apply (inner_flat (Some (join_path (exprs a)))); [exact Ht|].
    intros b Hb. now apply T_at.
  - assert (E : is_entity sp rp (exprs a) (Elem n at_ t cs tl) = false).
    { cbn [is_entity]. unfold root in Hr. rewrite Hr, orb_false_r.
      pose proof (T_none a Hc Hr Ha) as HN. apply orb_false_iff. split.
      - destruct (blank sp t) eqn:Eb; [reflexivity|]. exfalso. apply nonblank_char in Eb as (c & Hin & Hs).
        apply (HT a c); [|exact Hs|exact HN]. rewrite flat_eq. apply in_or_app. left. now apply in_map.
      - apply not_true_iff_false. intros Hex. apply existsb_exists in Hex as (c & Hin & Hb).
        apply negb_true_iff in Hb. apply nonblank_char in Hb as (x & Hx & Hs).
        apply (HT a x); [|exact Hs|exact HN]. rewrite flat_eq. apply in_or_app. right.
        destruct (flat_kids_in a cs 0 c Hin) as [j Hj]. apply Hj. apply in_or_app. right. now apply in_map. }
    cbn [tagged_items]. rewrite E. rewrite flat_eq in *. rewrite map_app, flat_map_app, !filter_app, pv_chars.
    cbn [is_entity] in E. rewrite !orb_false_iff in E. destruct E as [[E1 E2] _]. apply negb_false_iff in E1.
    rewrite chars_untagged, chars_toks, !(filter_blank _ _ E1). cbn [app].
    assert (HT' : forall b c, In (PChar b c) (flat_kids a 0 cs) -> sp c = false -> T b <> None).
    { intros b c Hin. apply HT. apply in_or_app. now right. }
    clear HT. cbn [tidy] in Ht. cbn [fine] in Hf. revert HT'. generalize 0.
    induction IH as [|c cs IHc HF IH2]; intros i HT; [reflexivity|].
    apply tidy_kid in Ht as [Hk Ht]. cbn [forallb] in Hf. apply andb_true_iff in Hf as [Hfc Hf].
    cbn [existsb] in E2. apply orb_false_iff in E2 as [E2c E2]. apply negb_false_iff in E2c.
    cbn [flat_map flat_kids] in *. rewrite !flat_map_app, !map_app, !filter_app, !chars_untagged, chars_toks, pv_chars.
    rewrite !(filter_blank _ _ E2c), app_nil_r. cbn [app].
    rewrite (IH2 Ht Hf E2 (S i)).
    2:{ intros b x Hin. apply HT. apply in_or_app. right. apply in_or_app. now right. }
    f_equal.
    destruct Hk as [[Hl Hb]|(Hl & Hb & Htc)]; rewrite Hb in *.
    + destruct (break_empty c Hb) as [HI ->]. cbn [flat_map ochars app filter inked map pv].
      f_equal. destruct c as [cn [|] [|] [|] ctl|]; try discriminate. cbn [tagged_items].
      destruct (is_entity _ _ _ _); reflexivity.
    + unfold lb_of. rewrite Hl. cbn [flat_map filter app]. apply andb_true_iff in Hfc as [Hfn Hfc].
      assert (Hx : exprs a ++ [expr c] = exprs (a ++ [(i, node_of c)])).
      { unfold exprs. rewrite map_app. cbn. now rewrite (expr_node c Hfn). }
      rewrite Hx. apply IHc; auto.
      * now destruct a.
      * intros b [q Hq] Hb1 Hb2. destruct q as [|y q] using rev_ind.
        { rewrite app_nil_r in Hq. congruence. }
        rewrite app_assoc in Hq. apply app_inj_tail in Hq as [Hq _]. subst a.
        destruct (q) as [|z q0] eqn:Eq; [rewrite app_nil_r in *; exact Hr|].
        apply Hc; [now eexists|exact Hb1|]. intros Hbb. rewrite <- (app_nil_r b) in Hbb at 1.
        apply app_inv_head in Hbb. discriminate.
      * intros b x Hin. apply HT. apply in_or_app. now left.
Qed.

Lemma container_flat n at_ t cs :
  tidy (Elem n at_ t cs []) = true -> fine (Elem n at_ t cs []) = true ->
  (forall b c, In (PChar b c) (flat [] (Elem n at_ t cs [])) -> b <> [] -> sp c = false -> T b <> None) ->
  filter inked (flat_map item_chars (container_items sp wd up lo rp (Elem n at_ t cs [])))
  = filter inked (map pv (flat [] (Elem n at_ t cs []))).
Proof.
  intros Ht Hf HT. cbn [container_items]. rewrite flat_eq in *.
  rewrite !flat_map_app, map_app, !filter_app, pv_chars, !chars_untagged, !chars_toks.
  cbn [map filter]. rewrite app_nil_r. f_equal.
  assert (HT' : forall b c, In (PChar b c) (flat_kids [] 0 cs) -> b <> [] -> sp c = false -> T b <> None).
  { intros b c Hin. apply HT. apply in_or_app. now right. }
  clear HT. cbn [tidy] in Ht. cbn [fine] in Hf. revert HT'. generalize 0.
  induction cs as [|c cs IH2]; intros i HT; [reflexivity|].
  apply tidy_kid in Ht as [Hk Ht]. cbn [forallb] in Hf. apply andb_true_iff in Hf as [Hfc Hf].
  cbn [flat_map flat_kids] in *. rewrite !flat_map_app, !map_app, !filter_app, !chars_untagged, chars_toks, pv_chars.
  rewrite (IH2 Ht Hf (S i)).
  2:{ intros b x Hin. apply HT. apply in_or_app. right. apply in_or_app. now right. }
  rewrite !app_assoc. f_equal. f_equal.
  destruct Hk as [[Hl Hb]|(Hl & Hb & Htc)]; rewrite Hb in *.
  - destruct (break_empty c Hb) as [HI ->]. cbn [flat_map ochars app filter inked map pv].
    f_equal. destruct c as [cn [|] [|] [|] ctl|]; try discriminate. cbn [tagged_items].
    destruct (is_entity _ _ _ _); reflexivity.
  - unfold lb_of. rewrite Hl. cbn [flat_map filter app]. apply andb_true_iff in Hfc as [Hfn Hfc].
    assert (Hx : [expr c] = exprs [(i, node_of c)]) by (cbn; now rewrite (expr_node c Hfn)).
    rewrite Hx. cbn [app] in HT. apply tagged_flat; auto; try discriminate.
    + intros b [q Hq] Hb1 Hb2. destruct b as [|y b]; [congruence|]. injection Hq as <- Hq.
      symmetry in Hq. apply app_eq_nil in Hq as [-> ->]. congruence.
    + intros b x Hin Hs. apply (HT b x); [apply in_or_app; now left| |exact Hs].
      intros ->. apply flat_addr in Hin as [q Hq]. cbn in Hq. discriminate.
Qed.
End Chars.
