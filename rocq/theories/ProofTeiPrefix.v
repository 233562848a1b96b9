(** Lemmas about loading a saved tree: which characters begin an entity. *)
From Verif Require Import Base ModelTags ModelTokenize ModelXml ModelTei ProofXml ProofTags
  ProofTokenize SpecTeiRead ProofTeiRead ProofTeiLoad PropTokenize PropTeiRead SpecTeiWrite ProofTeiWrite ProofTeiSave
  PropTeiWrite ProofTeiRoundtrip.
Open Scope nat_scope.

Definition addr_eq_dec (a b : addr) : {a = b} + {a <> b}.
Proof. repeat decide equality. Defined.
Definition addr_eqb (a b : addr) : bool := if addr_eq_dec a b then true else false.
Lemma addr_eqb_true a b : addr_eqb a b = true <-> a = b.
Proof. unfold addr_eqb. destruct (addr_eq_dec a b); split; congruence. Qed.
Lemma addr_eqb_refl a : addr_eqb a a = true.
Proof. now apply addr_eqb_true. Qed.

(** a character (or line break), the value of the tag and whether it begins the tag *)
Definition mark := option (N * ostr * bool).

Section Marks.
Variables sp wd up lo : N -> bool.
Variable rp : list str.
(** all pieces of the tree *)
Variable L : list piece.

(** some (non blank) text lies directly in the element *)
Definition direct (b : addr) : bool :=
  existsb (fun p => match p with PChar a c => addr_eqb a b && negb (sp c) | PLb _ => false end) L.
Lemma direct_true b : direct b = true <-> exists c, In (PChar b c) L /\ sp c = false.
Proof.
  unfold direct. rewrite existsb_exists. split.
  - intros ([a c|a] & Hin & H); [|discriminate]. apply andb_true_iff in H as [H1 H2].
    apply addr_eqb_true in H1. subst a. apply negb_true_iff in H2. eauto.
  - intros (c & Hin & H). exists (PChar b c). rewrite addr_eqb_refl, H. auto.
Qed.
Definition ent (b : addr) : bool := mem (join_path (exprs b)) rp || direct b.
(** the outermost tagged element around an address *)
Definition E (a : addr) : option addr := find ent (inits a).
Definition V (a : addr) : ostr := option_map (fun b => join_path (exprs b)) (E a).
Definition clear (a : addr) : Prop := forall b, prefix b a -> b <> [] -> b <> a -> ent b = false.

Lemma in_inits {A} (a b : list A) : In b (inits a) <-> prefix b a /\ b <> [].
Proof.
  unfold inits. rewrite in_map_iff. split.
  - intros (n & <- & Hn). apply in_seq in Hn. split; [apply prefix_firstn_self|].
    intros H. apply (f_equal (@length _)) in H. rewrite firstn_length in H. cbn in H. lia.
  - intros [Hp Hb]. exists (length b). split; [now apply prefix_firstn|]. apply in_seq.
    apply prefix_length in Hp. destruct b; [congruence|]. cbn in *. lia.
Qed.
Lemma E_at a b : prefix a b -> a <> [] -> clear a -> ent a = true -> E b = Some a.
Proof.
  intros [c ->] Ha Hc Hr. unfold E. rewrite inits_app, find_app.
  destruct (exists_last Ha) as (a0 & x & ->). rewrite inits_snoc, find_app.
  rewrite find_none.
  - cbn. now rewrite Hr.
  - intros b Hb. apply in_inits in Hb as [Hb Hn]. apply Hc; [|exact Hn|].
    + eapply prefix_trans; [exact Hb|]. now exists [x].
    + intros ->. apply prefix_length in Hb. rewrite app_length in Hb. cbn in Hb. lia.
Qed.
Lemma E_none a : clear a -> ent a = false -> E a = None.
Proof.
  intros Hc Hr. unfold E. apply find_none. intros b Hb. apply in_inits in Hb as [Hb Hn].
  destruct (addr_eq_dec b a) as [->|Hne]; [exact Hr|]. now apply Hc.
Qed.
Lemma E_some a b : E a = Some b -> prefix b a /\ b <> [] /\ ent b = true.
Proof.
  unfold E. intros H. apply find_some in H as [H1 H2]. apply in_inits in H1. tauto.
Qed.
Lemma E_nil : E [] = None.
Proof. reflexivity. Qed.
Lemma E_below a b x : E b = Some x -> prefix a b -> clear a -> ent a = false -> prefix a x.
Proof.
  intros H Hab Hc Hr. apply E_some in H as (H1 & H2 & H3).
  destruct (le_lt_dec (length a) (length x)) as [Hl|Hl].
  - rewrite <- (prefix_firstn _ _ Hab), <- (prefix_firstn _ _ H1).
    replace (firstn (length a) b) with (firstn (length a) (firstn (length x) b)).
    + rewrite (prefix_firstn x b H1). apply prefix_firstn_self.
    + rewrite firstn_firstn. f_equal. lia.
  - assert (prefix x a).
    { rewrite <- (prefix_firstn _ _ Hab), <- (prefix_firstn _ _ H1).
      rewrite (prefix_firstn a b Hab).
      replace (firstn (length x) b) with (firstn (length x) (firstn (length a) b)).
      - rewrite (prefix_firstn a b Hab). apply prefix_firstn_self.
      - rewrite firstn_firstn. f_equal. lia. }
    rewrite (Hc x) in H3; [discriminate|assumption|assumption|]. intros ->. lia.
Qed.

Definition newly (prev cur : option addr) : bool :=
  match cur with
  | None => false
  | Some x => match prev with Some y => negb (addr_eqb y x) | None => true end
  end.
(** characters of a sequence of pieces; [prev] is the entity of the character before *)
Fixpoint pm (prev : option addr) (l : list piece) : list mark :=
  match l with
  | [] => []
  | PLb _ :: l' => None :: pm prev l'
  | PChar a c :: l' => Some (c, V a, newly prev (E a)) :: pm (E a) l'
  end.
Fixpoint last_e (prev : option addr) (l : list piece) : option addr :=
  match l with
  | [] => prev
  | PLb _ :: l' => last_e prev l'
  | PChar a _ :: l' => last_e (E a) l'
  end.
Lemma pm_app l1 : forall prev l2, pm prev (l1 ++ l2) = pm prev l1 ++ pm (last_e prev l1) l2.
Proof. induction l1 as [|[a c|a] l1 IH]; intros prev l2; cbn; [reflexivity| |]; now rewrite IH. Qed.
Lemma last_e_app l1 : forall prev l2, last_e prev (l1 ++ l2) = last_e (last_e prev l1) l2.
Proof. induction l1 as [|[a c|a] l1 IH]; intros prev l2; cbn; auto. Qed.
Lemma last_e_in l : forall prev, last_e prev l = prev \/ exists a c, In (PChar a c) l /\ last_e prev l = E a.
Proof.
  induction l as [|[a c|a] l IH]; intros prev; cbn; [auto| |].
  - destruct (IH (E a)) as [->|(b & d & H1 & H2)]; right; [exists a, c; auto|exists b, d; auto].
  - destruct (IH prev) as [H|(b & d & H1 & H2)]; [auto|]. right. exists b, d. auto.
Qed.

Definition unflag (o : option (N * ostr)) : mark := match o with Some x => Some (x, false) | None => None end.
Fixpoint markfirst (l : list (option (N * ostr))) : list mark :=
  match l with
  | [] => []
  | None :: l' => None :: markfirst l'
  | Some x :: l' => Some (x, true) :: map unflag l'
  end.
Definition pvE (p : piece) : option (N * ostr) := match p with PChar a c => Some (c, V a) | PLb _ => None end.
Lemma pm_in x l : Forall (fun p => match p with PChar a _ => E a = Some x | PLb _ => True end) l ->
  pm (Some x) l = map unflag (map pvE l).
Proof.
  induction 1 as [|[a c|a] l Hp HF IH]; cbn; [reflexivity| |].
  - rewrite Hp. cbn. rewrite addr_eqb_refl. cbn. now rewrite IH.
  - now rewrite IH.
Qed.
Lemma pm_new x l : Forall (fun p => match p with PChar a _ => E a = Some x | PLb _ => True end) l ->
  forall prev, prev <> Some x -> pm prev l = markfirst (map pvE l).
Proof.
  induction 1 as [|[a c|a] l Hp HF IH]; intros prev Hne; cbn [pm map pvE markfirst]; [reflexivity| |].
  - rewrite Hp. unfold newly. rewrite (pm_in x l HF). do 2 f_equal.
    destruct prev as [y|]; [|reflexivity]. destruct (addr_eqb y x) eqn:Ee; [|reflexivity].
    apply addr_eqb_true in Ee. congruence.
  - f_equal. now apply IH.
Qed.

(** marks of items *)
Definition beg (t : ostr) : bool := match t with Some t => starts_with (u "b-") t | None => false end.
Definition text_marks (s : str) (v : ostr) (f : bool) : list mark :=
  match s with [] => [] | c :: r => Some (c, v, f) :: map (fun c => Some (c, v, false)) r end.
Definition item_marks (i : item) : list mark :=
  match i with ITok s t => text_marks s (option_map (skipn 2) t) (beg t) | ILb => [None] end.

Lemma text_marks_false s v : text_marks s v false = map (fun c => Some (c, v, false)) s.
Proof. destruct s; reflexivity. Qed.
Lemma unflag_ochars v s : map unflag (ochars v (Some s)) = map (fun c => Some (c, v, false)) s.
Proof. cbn. now rewrite map_map. Qed.
Lemma marks_untagged l : flat_map item_marks (untagged l) = map unflag (flat_map (ochars None) l).
Proof.
  induction l as [|[s|] l IH]; [reflexivity| |].
  - cbn [untagged map flat_map]. rewrite map_app, unflag_ochars. cbn [item_marks option_map beg].
    rewrite text_marks_false. now rewrite <- IH.
  - cbn. now rewrite <- IH.
Qed.
Lemma marks_with_i v l : flat_map item_marks (with_tag (u "i-" ++ v) l) = map unflag (flat_map (ochars (Some v)) l).
Proof.
  induction l as [|[s|] l IH]; [reflexivity| |].
  - cbn [with_tag map flat_map]. rewrite map_app, unflag_ochars.
    change (item_marks (ITok s (Some (u "i-" ++ v)))) with (text_marks s (Some v) false).
    rewrite text_marks_false. now rewrite <- IH.
  - cbn. now rewrite <- IH.
Qed.
Lemma marks_entity v l : Forall (fun o => match o with Some s => s <> [] | None => True end) l ->
  flat_map item_marks (entity v l) = markfirst (flat_map (ochars (Some v)) l).
Proof.
  induction 1 as [|[s|] l Hs HF IH]; [reflexivity| |].
  - cbn [entity flat_map]. rewrite marks_with_i.
    change (item_marks (ITok s (Some (u "b-" ++ v)))) with (text_marks s (Some v) true).
    destruct s as [|c s]; [congruence|]. cbn [text_marks ochars map app markfirst]. rewrite map_app.
    f_equal. f_equal. now rewrite map_map.
  - cbn [entity flat_map item_marks app ochars markfirst]. now rewrite IH.
Qed.
Lemma toks_nonempty s : Forall (fun o => match o with Some s => s <> [] | None => True end) (toks wd up lo s).
Proof.
  unfold toks. apply Forall_forall. intros o Ho. apply in_map_iff in Ho as (x & <- & Hx).
  now apply C02_nonempty in Hx.
Qed.
Lemma inner_nonempty : forall e, Forall (fun o => match o with Some s => s <> [] | None => True end) (inner wd up lo e).
Proof.
  induction e as [n a t cs tl IH|tl] using xml_ind'; [|constructor]. cbn [inner]. apply Forall_app. split; [apply toks_nonempty|].
  apply Forall_flat_map. rewrite Forall_forall in *. intros c Hc. rewrite !Forall_app. split; [|split; [now apply IH|apply toks_nonempty]].
  unfold lb_of. destruct (is_lb c); repeat constructor.
Qed.

Lemma inner_pieces v : forall e a, tidy e = true -> (forall b, prefix a b -> V b = v) ->
  flat_map (ochars v) (inner wd up lo e) = map pvE (flat a e).
Proof.
  induction e as [n at_ t cs tl IH|tl] using xml_ind'; intros a Ht HT; [|reflexivity].
  rewrite flat_eq, map_app, map_map. cbn [pvE]. rewrite (HT a (prefix_refl a)). cbn [inner]. rewrite flat_map_app, chars_toks.
  f_equal. cbn [tidy] in Ht. generalize 0. induction IH as [|c cs Hc HF IHc]; intros i; [reflexivity|].
  apply tidy_kid in Ht as [Hk Ht]. cbn [flat_map flat_kids]. rewrite !flat_map_app, !map_app, chars_toks, map_map. cbn [pvE].
  rewrite (HT a (prefix_refl a)), (IHc Ht (S i)). rewrite <- !app_assoc.
  destruct Hk as [[Hl Hb]|(Hl & Hb & Htc)]; rewrite Hb.
  - destruct (break_empty wd up lo c Hb) as [-> ->]. reflexivity.
  - unfold lb_of. rewrite Hl. cbn [flat_map app]. f_equal. apply Hc; [exact Htc|].
    intros b Hb'. apply HT. eapply prefix_trans; [|exact Hb']. now exists [(i, node_of c)].
Qed.

Lemma pm_none a s prev : E a = None -> pm prev (map (PChar a) s) = map (fun c => Some (c, None, false)) s.
Proof.
  intros Ha. assert (Hv : V a = None) by (unfold V; now rewrite Ha).
  revert prev. induction s as [|c s IH]; intros prev; [reflexivity|]. cbn [map pm]. now rewrite Ha, Hv, IH.
Qed.
Lemma marks_toks_none s : flat_map item_marks (untagged (toks wd up lo s)) = map (fun c => Some (c, None, false)) s.
Proof. rewrite marks_untagged, chars_toks, map_map. reflexivity. Qed.
Lemma last_e_none a s prev : E a = None -> last_e prev (map (PChar a) s) = prev \/ last_e prev (map (PChar a) s) = None.
Proof.
  intros Ha. destruct (last_e_in (map (PChar a) s) prev) as [H|(b & c & H1 & H2)]; [now left|right].
  apply in_map_iff in H1 as (d & Hd & _). injection Hd as <- <-. now rewrite H2.
Qed.

(** the pieces of a part of the tree are all pieces at these addresses *)
Definition whole (a : addr) (e : xml) : Prop :=
  forall b c, prefix a b -> (In (PChar b c) L <-> In (PChar b c) (flat a e)).

Lemma prefix_step (a : addr) i n j n' x : prefix (a ++ [(i, n)]) x -> prefix (a ++ [(j, n')]) x -> i = j /\ n = n'.
Proof.
  intros [y Hy] [z Hz]. rewrite Hy in Hz. rewrite <- !app_assoc in Hz. apply app_inv_head in Hz. cbn in Hz.
  injection Hz as -> -> _. auto.
Qed.
Lemma kid_pieces a cs : forall i j n b c, i <= j -> prefix (a ++ [(j, n)]) b -> In (PChar b c) (flat_kids a i cs) ->
  exists k, nth_error cs (j - i) = Some k /\ node_of k = n /\ is_break k = false /\
    In (PChar b c) (flat (a ++ [(j, n)]) k).
Proof.
  induction cs as [|k cs IH]; intros i j n b c Hij Hp Hin; [destruct Hin|]. cbn [flat_kids] in Hin.
  rewrite !in_app_iff in Hin. destruct Hin as [Hin|[Hin|Hin]].
  - destruct (is_break k) eqn:Eb.
    + destruct Hin as [Hin|[]]; discriminate.
    + pose proof (flat_addr _ _ _ Hin) as (q & Hq). cbn [piece_addr] in Hq.
      assert (Hp2 : prefix (a ++ [(i, node_of k)]) b) by (exists q; exact Hq).
      destruct (prefix_step _ _ _ _ _ _ Hp Hp2) as [-> ->]. exists k. rewrite Nat.sub_diag. auto.
  - apply in_map_iff in Hin as (d & Hd & _). injection Hd as <- <-. apply prefix_length in Hp.
    rewrite app_length in Hp. cbn in Hp. lia.
  - destruct (Nat.eq_dec i j) as [->|Hne].
    + exfalso. clear -Hin Hp. assert (G : forall i, j < i -> In (PChar b c) (flat_kids a i cs) -> False); [|eapply G; [|exact Hin]; lia].
      clear Hin. induction cs as [|k cs IH]; intros i Hi Hin; [destruct Hin|]. cbn [flat_kids] in Hin.
      rewrite !in_app_iff in Hin. destruct Hin as [Hin|[Hin|Hin]].
      * destruct (is_break k); [destruct Hin as [Hin|[]]; discriminate|].
        pose proof (flat_addr _ _ _ Hin) as (q & Hq). cbn [piece_addr] in Hq.
        assert (Hp2 : prefix (a ++ [(i, node_of k)]) b) by (exists q; exact Hq).
        destruct (prefix_step _ _ _ _ _ _ Hp Hp2). lia.
      * apply in_map_iff in Hin as (d & Hd & _). injection Hd as <- <-. apply prefix_length in Hp.
        rewrite app_length in Hp. cbn in Hp. lia.
      * apply (IH (S i)); [lia|exact Hin].
    + destruct (IH (S i) j n b c ltac:(lia) Hp Hin) as (k' & H1 & H2). exists k'. split; [|exact H2].
      replace (j - i) with (S (j - S i)) by lia. exact H1.
Qed.
(** the pieces directly in an element *)
Lemma own_pieces a n at_ t cs tl c :
  In (PChar a c) (flat a (Elem n at_ t cs tl)) <-> In c t \/ exists k, In k cs /\ In c (xtail k).
Proof.
  rewrite flat_eq, in_app_iff. split.
  - intros [H|H].
    + apply in_map_iff in H as (d & Hd & Hin). injection Hd as ->. auto.
    + right. revert H. generalize 0. induction cs as [|k cs IH]; intros i H; [destruct H|]. cbn [flat_kids] in H.
      rewrite !in_app_iff in H. destruct H as [H|[H|H]].
      * destruct (is_break k); [destruct H as [H|[]]; discriminate|].
        apply flat_addr in H as (q & Hq). cbn [piece_addr] in Hq. apply (f_equal (@length _)) in Hq.
        rewrite !app_length in Hq. cbn in Hq. lia.
      * apply in_map_iff in H as (d & Hd & Hin). injection Hd as ->. exists k. split; [now left|exact Hin].
      * destruct (IH _ H) as (k' & H1 & H2). exists k'. split; [now right|exact H2].
  - intros [H|(k & Hk & Hc)].
    + left. now apply in_map.
    + right. destruct (flat_kids_in a cs 0 k Hk) as [j Hj]. apply Hj. apply in_or_app. right. now apply in_map.
Qed.
Lemma blank_iff s : blank sp s = true <-> forall c, In c s -> sp c = true.
Proof. unfold blank. apply forallb_forall. Qed.
Lemma ent_entity a n at_ t cs tl : whole a (Elem n at_ t cs tl) ->
  is_entity sp rp (exprs a) (Elem n at_ t cs tl) = ent a.
Proof.
  intros Hw. cbn [is_entity]. unfold ent. rewrite orb_comm. f_equal. apply eq_true_iff_eq.
  rewrite direct_true, orb_true_iff, negb_true_iff, existsb_exists. split.
  - intros [H|(k & Hk & H)].
    + apply nonblank_char in H as (c & Hc & Hs). exists c. split; [|exact Hs]. apply Hw; [apply prefix_refl|].
      apply own_pieces. auto.
    + apply negb_true_iff in H. apply nonblank_char in H as (c & Hc & Hs). exists c. split; [|exact Hs].
      apply Hw; [apply prefix_refl|]. apply own_pieces. eauto.
  - intros (c & Hin & Hs). apply Hw in Hin; [|apply prefix_refl]. apply own_pieces in Hin as [Hin|(k & Hk & Hin)].
    + left. apply not_true_iff_false. rewrite blank_iff. intros H. rewrite (H c Hin) in Hs. discriminate.
    + right. exists k. split; [exact Hk|]. apply negb_true_iff, not_true_iff_false. rewrite blank_iff.
      intros H. rewrite (H c Hin) in Hs. discriminate.
Qed.
Lemma whole_kid a n at_ t cs tl i k : whole a (Elem n at_ t cs tl) -> nth_error cs i = Some k -> is_break k = false ->
  whole (a ++ [(i, node_of k)]) k.
Proof.
  intros Hw Hk Hb b c Hp. assert (Hpa : prefix a b) by (eapply prefix_trans; [|exact Hp]; now exists [(i, node_of k)]).
  rewrite (Hw b c Hpa), flat_eq, in_app_iff. split.
  - intros [H|H].
    + apply in_map_iff in H as (d & Hd & _). injection Hd as <- <-. apply prefix_length in Hp.
      rewrite app_length in Hp. cbn in Hp. lia.
    + destruct (kid_pieces a cs 0 i (node_of k) b c ltac:(lia) Hp H) as (k' & H1 & _ & _ & H2).
      rewrite Nat.sub_0_r, Hk in H1. injection H1 as <-. exact H2.
  - intros H. right.
    assert (G : forall j, In (PChar b c) (flat (a ++ [(j + i, node_of k)]) k) -> In (PChar b c) (flat_kids a j cs)).
    { clear H Hw Hp Hpa. revert i Hk. induction cs as [|d cs IH]; intros [|i] Hk j H; try discriminate.
      - injection Hk as ->. cbn [flat_kids]. rewrite Hb, Nat.add_0_r in *. apply in_or_app. now left.
      - cbn [flat_kids]. apply in_or_app. right. apply in_or_app. right. apply (IH i Hk (S j)).
        now replace (S j + i) with (j + S i) by lia. }
    apply (G 0). exact H.
Qed.

Lemma kids_marks a (cs : list xml) :
  E a = None -> clear a -> ent a = false \/ a = [] ->
  Forall (fun e => forall a prev, a <> [] -> tidy e = true -> fine e = true -> clear a -> whole a e ->
    (forall x, prev = Some x -> ~ prefix a x) ->
    flat_map item_marks (tagged_items sp wd up lo rp (exprs a) e) = pm prev (flat a e)) cs ->
  forall i prev,
  forallb (fun c => if is_lb c then is_break c else tidy c) cs = true ->
  forallb (fun c => node_fine c && fine c) cs = true ->
  (forall j k, nth_error cs j = Some k -> is_break k = false -> whole (a ++ [(i + j, node_of k)]) k) ->
  (forall x j n, prev = Some x -> i <= j -> ~ prefix (a ++ [(j, n)]) x) ->
  flat_map item_marks (flat_map (fun c =>
     untagged (lb_of c) ++ tagged_items sp wd up lo rp (exprs a ++ [expr c]) c ++ untagged (toks wd up lo (xtail c))) cs)
  = pm prev (flat_kids a i cs).
Proof.
  intros HE Hc Hr HF. induction HF as [|c cs Hcc HF IH]; intros i prev Ht Hf Hw Hprev; [reflexivity|].
  apply tidy_kid in Ht as [Hk Ht]. cbn [forallb] in Hf. apply andb_true_iff in Hf as [Hfc Hf].
  cbn [flat_map flat_kids]. rewrite !flat_map_app, !pm_app, marks_toks_none, (pm_none a _ _ HE).
  rewrite <- !app_assoc.
  assert (Hw' : forall j k, nth_error cs j = Some k -> is_break k = false -> whole (a ++ [(S i + j, node_of k)]) k).
  { intros j k H1 H2. replace (S i + j) with (i + S j) by lia. now apply Hw. }
  destruct Hk as [[Hl Hb]|(Hl & Hb & Htc)]; rewrite Hb in *.
  - destruct (break_empty wd up lo c Hb) as [HI ->].
    assert (Hti : flat_map item_marks (tagged_items sp wd up lo rp (exprs a ++ [expr c]) c) = []).
    { destruct c as [cn [|] [|] [|] ctl|]; try discriminate. cbn [tagged_items]. destruct (is_entity _ _ _ _); reflexivity. }
    rewrite Hti. cbn [untagged map flat_map item_marks app pm last_e]. f_equal. f_equal.
    apply IH; auto. intros x j n Hx Hj. destruct (last_e_none a (xtail c) prev HE) as [E1|E1]; rewrite E1 in Hx; [|discriminate].
    apply Hprev; [exact Hx|lia].
  - unfold lb_of. rewrite Hl. cbn [untagged map flat_map app]. apply andb_true_iff in Hfc as [Hfn Hfc].
    assert (Hx : exprs a ++ [expr c] = exprs (a ++ [(i, node_of c)])).
    { unfold exprs. rewrite map_app. cbn. now rewrite (expr_node c Hfn). }
    assert (Hcl : clear (a ++ [(i, node_of c)])).
    { intros b [q Hq] Hb1 Hb2. destruct q as [|y q] using rev_ind.
      { rewrite app_nil_r in Hq. congruence. }
      rewrite app_assoc in Hq. apply app_inj_tail in Hq as [Hq _].
      destruct (addr_eq_dec b a) as [->|Hne].
      - destruct Hr as [Hr|Hr]; [exact Hr|congruence].
      - apply Hc; [exists q; exact Hq|exact Hb1|exact Hne]. }
    rewrite Hx. rewrite (Hcc _ prev); auto.
    + f_equal. f_equal. apply IH; auto. intros x j n Hxx Hj.
      destruct (last_e_none a (xtail c) (last_e prev (flat (a ++ [(i, node_of c)]) c)) HE) as [E1|E1]; rewrite E1 in Hxx; [|discriminate].
      destruct (last_e_in (flat (a ++ [(i, node_of c)]) c) prev) as [E2|(b & d & H1 & H2)].
      * rewrite E2 in Hxx. apply Hprev; [exact Hxx|lia].
      * rewrite H2 in Hxx. intros Hp. apply flat_addr in H1 as (q & Hq). cbn [piece_addr] in Hq.
        assert (Hab : prefix (a ++ [(i, node_of c)]) b) by (exists q; exact Hq).
        destruct (ent (a ++ [(i, node_of c)])) eqn:Ee.
        -- assert (Hn : a ++ [(i, node_of c)] <> []) by (now destruct a).
           rewrite (E_at _ b Hab Hn Hcl Ee) in Hxx. injection Hxx as <-.
           destruct (prefix_step _ _ _ _ _ _ Hp (prefix_refl _)). lia.
        -- pose proof (E_below _ _ _ Hxx Hab Hcl Ee) as Hpx. destruct (prefix_step _ _ _ _ _ _ Hp Hpx). lia.
    + now destruct a.
    + specialize (Hw 0 c eq_refl Hb). now rewrite Nat.add_0_r in Hw.
Qed.

Lemma tagged_marks : forall e a prev, a <> [] -> tidy e = true -> fine e = true -> clear a -> whole a e ->
  (forall x, prev = Some x -> ~ prefix a x) ->
  flat_map item_marks (tagged_items sp wd up lo rp (exprs a) e) = pm prev (flat a e).
Proof.
  induction e as [n at_ t cs tl IH|tl] using xml_ind'; intros a prev Ha Ht Hf Hc Hw Hprev; [|reflexivity].
  cbn [tagged_items]. rewrite (ent_entity a n at_ t cs tl Hw). destruct (ent a) eqn:Hr.
  - assert (HV : forall b, prefix a b -> E b = Some a) by (intros b Hb; now apply E_at).
    rewrite marks_entity by apply inner_nonempty.
    rewrite (inner_pieces (Some (join_path (exprs a))) _ a Ht).
    2:{ intros b Hb. unfold V. now rewrite (HV b Hb). }
    symmetry. apply (pm_new a).
    + apply Forall_forall. intros [b c|b] Hin; [|exact I]. apply HV. apply flat_addr in Hin as (q & Hq).
      cbn in Hq. now exists q.
    + intros ->. apply (Hprev a eq_refl), prefix_refl.
  - rewrite flat_eq, flat_map_app, pm_app, marks_toks_none.
    assert (HE : E a = None) by now apply E_none.
    rewrite (pm_none a _ _ HE). f_equal. apply kids_marks; auto.
    + intros j k Hj Hb. apply (whole_kid a n at_ t cs tl); auto.
    + intros x j m Hx Hj Hp. destruct (last_e_none a t prev HE) as [E1|E1]; rewrite E1 in Hx; [|discriminate].
      apply (Hprev x Hx). eapply prefix_trans; [|exact Hp]. now exists [(j, m)].
Qed.

Lemma container_marks n at_ t cs : L = flat [] (Elem n at_ t cs []) ->
  tidy (Elem n at_ t cs []) = true -> fine (Elem n at_ t cs []) = true ->
  flat_map item_marks (container_items sp wd up lo rp (Elem n at_ t cs [])) = pm None (flat [] (Elem n at_ t cs [])).
Proof.
  intros HL Ht Hf. cbn [container_items]. rewrite flat_eq, !flat_map_app, pm_app, !marks_toks_none, (pm_none [] _ _ E_nil).
  cbn [map]. rewrite app_nil_r. f_equal.
  assert (Hw : whole [] (Elem n at_ t cs [])) by (intros b c _; rewrite HL; reflexivity).
  change (fun c => untagged (lb_of c) ++ tagged_items sp wd up lo rp [expr c] c ++ untagged (toks wd up lo (xtail c)))
    with (fun c => untagged (lb_of c) ++ tagged_items sp wd up lo rp (exprs [] ++ [expr c]) c ++ untagged (toks wd up lo (xtail c))).
  apply kids_marks; auto.
  - intros b [q Hq] Hb. destruct b; [congruence|discriminate].
  - apply Forall_forall. intros e _. apply tagged_marks.
  - intros j k Hj Hb. apply (whole_kid [] n at_ t cs []); auto.
  - intros x j m Hx. destruct (last_e_none [] t None E_nil) as [E1|E1]; rewrite E1 in Hx; discriminate.
Qed.

(* ---------------------------------------------------------------- *)
(** the marks of what was written *)
Variable mapping : list (str * str).
Notation main_path := (main_path mapping).
Definition prefixb (a b : addr) : bool := addr_eqb (firstn (length a) b) a.
Lemma prefixb_true a b : prefixb a b = true <-> prefix a b.
Proof.
  unfold prefixb. rewrite addr_eqb_true. split.
  - intros <-. apply prefix_firstn_self.
  - apply prefix_firstn.
Qed.
(** is the word the first in its main element? ([pw] is the address of the word before) *)
Definition fresh_word (pw : addr) (t : tok) (a : addr) : bool :=
  negb (Nat.eqb (length (main_path t)) 0) && negb (prefixb (firstn (length (main_path t)) a) pw).
Definition inked3 (o : mark) : bool := match o with Some (c, _, _) => negb (sp c) | None => true end.
Definition word_marks (s : str) (v : ostr) (f : bool) : list mark := filter inked3 (text_marks s v f).
Fixpoint evm (pw : addr) (evs : list ev) : list mark :=
  match evs with
  | [] => []
  | EvLb _ :: r => None :: evm pw r
  | EvTok t a :: r =>
      if is_space sp t then evm pw r else word_marks (tx t) (V a) (fresh_word pw t a) ++ evm a r
  end.
Definition good (t : tok) (a : addr) : Prop :=
  let n := length (main_path t) in
  n <= length a /\ (n = 0 -> a = []) /\ (0 < n -> clear (firstn n a) /\ ent (firstn n a) = true).
Lemma good_E t a : good t a -> E a = if Nat.eqb (length (main_path t)) 0 then None else Some (firstn (length (main_path t)) a).
Proof.
  intros (H1 & H2 & H3). destruct (Nat.eqb _ 0) eqn:E0.
  - apply Nat.eqb_eq in E0. now rewrite (H2 E0).
  - apply Nat.eqb_neq in E0. destruct H3 as [H3 H4]; [lia|]. apply E_at; auto; [apply prefix_firstn_self|].
    intros C. apply (f_equal (@length _)) in C. rewrite firstn_length in C. cbn in C. lia.
Qed.
Lemma pm_word a s : forall prev, s <> [] -> pm prev (map (PChar a) s) = text_marks s (V a) (newly prev (E a)).
Proof.
  destruct s as [|c s]; [congruence|]. intros prev _. cbn [map pm text_marks]. f_equal.
  destruct (E a) as [x|] eqn:Ex.
  - rewrite (pm_in x).
    + rewrite !map_map. reflexivity.
    + apply Forall_forall. intros p Hp. apply in_map_iff in Hp as (d & <- & _). exact Ex.
  - rewrite (pm_none a s None Ex). unfold V. now rewrite Ex.
Qed.
Lemma last_e_word a s prev : s <> [] -> last_e prev (map (PChar a) s) = E a.
Proof.
  destruct s as [|c s]; [congruence|]. intros _. cbn [map last_e].
  destruct (last_e_in (map (PChar a) s) (E a)) as [->|(b & d & H1 & H2)]; [reflexivity|].
  apply in_map_iff in H1 as (x & Hx & _). injection Hx as <- <-. exact H2.
Qed.
Lemma blank_inked s : blank sp s = true -> forall prev a, filter inked3 (pm prev (map (PChar a) s)) = [].
Proof.
  induction s as [|c s IH]; intros H prev a; [reflexivity|]. cbn [blank forallb] in H.
  apply andb_true_iff in H as [H1 H2]. cbn [map pm filter inked3]. rewrite H1. cbn. now apply IH.
Qed.

Definition ready (prev : option addr) (pw : addr) (evs : list ev) : Prop :=
  match next_word sp evs with
  | Some (w, b) =>
      let n := length (main_path w) in
      0 < n -> (prev = Some (firstn n b) <-> prefix (firstn n b) pw)
  | None => True
  end.
Lemma next_word_in evs t a : next_word sp evs = Some (t, a) -> In (t, a) (ev_words sp evs).
Proof.
  induction evs as [|[t' a'|a'] evs IH]; intros H; [discriminate| |].
  - cbn [next_word] in H. unfold ev_words. cbn [flat_map]. destruct (is_space sp t').
    + apply IH. exact H.
    + injection H as -> ->. now left.
  - apply IH. exact H.
Qed.
Lemma next_addr_word evs t a : next_word sp evs = Some (t, a) -> next_addr sp evs = a.
Proof.
  induction evs as [|[t' a'|a'] evs IH]; intros H; [discriminate| |]; cbn [next_word next_addr] in *; auto.
  destruct (is_space sp t'); auto. now injection H as -> ->.
Qed.
Lemma evs_marks evs : forall prev pw, ready prev pw evs ->
  (forall t a, In (t, a) (ev_words sp evs) -> good t a) ->
  placed sp pw evs -> spaced sp mapping pw evs ->
  filter inked3 (pm prev (flat_map flat_ev evs)) = evm pw evs.
Proof.
  induction evs as [|[t a|a] evs IH]; intros prev pw Hr Hg Hp Hs; [reflexivity| |].
  - cbn [flat_map flat_ev evm placed spaced] in *. rewrite pm_app, filter_app.
    destruct (is_space sp t) eqn:Es.
    + rewrite (blank_inked _ Es). cbn [app]. destruct Hp as [Hp1 Hp2], Hs as [Hs1 Hs2].
      apply IH; auto.
      * unfold ready in *. cbn [next_word] in Hr. rewrite Es in Hr.
        destruct (next_word sp evs) as [[w b]|] eqn:En; [|exact I]. cbv zeta in *. intros Hn.
        destruct (tx t) as [|c s] eqn:Et; [cbn; auto|]. rewrite <- Et, last_e_word by (rewrite Et; discriminate).
        assert (Hgw : good w b).
        { apply Hg. unfold ev_words. cbn [flat_map]. rewrite Es. now apply next_word_in. }
        destruct Hgw as (G1 & _ & G3). destruct (G3 Hn) as [G4 G5]. clear G3.
        rewrite (next_addr_word _ _ _ En) in Hp1.
        set (n := length (main_path w)) in *.
        specialize (Hs1 n (le_n _) G1).
        assert (Hx0 : firstn n b <> []).
        { intros C. apply (f_equal (@length _)) in C. rewrite firstn_length in C. cbn in C. lia. }
        destruct (le_lt_dec n (length a)) as [Hl|Hl].
        -- assert (Hpp : prefix (firstn n b) pw).
           { destruct (prefixb (firstn n b) pw) eqn:Epb; [now apply prefixb_true|].
             exfalso. assert (length a < n); [|lia]. apply Hs1. intros Hx. apply prefixb_true in Hx. congruence. }
           split; [intros _; exact Hpp|intros _].
           apply E_at; auto. rewrite <- (prefix_firstn _ _ Hp1).
           replace (firstn n b) with (firstn n (firstn (length a) b)); [apply prefix_firstn_self|].
           rewrite firstn_firstn. f_equal. lia.
        -- assert (Hnp : ~ prefix (firstn n b) pw) by now apply Hs1.
           assert (HEa : E a = None).
           { unfold E. apply find_none. intros x Hx. apply in_inits in Hx as [Hx1 Hx2]. apply G4; auto.
             - assert (Hxl : length x < n) by (apply prefix_length in Hx1; lia).
               assert (Hxb : prefix x b) by (eapply prefix_trans; eassumption).
               rewrite <- (prefix_firstn _ _ Hxb). replace (firstn (length x) b) with (firstn (length x) (firstn n b)).
               + apply prefix_firstn_self.
               + rewrite firstn_firstn. f_equal. lia.
             - intros ->. apply prefix_length in Hx1. rewrite firstn_length in Hx1. lia. }
           rewrite HEa. split; [discriminate|]. intros Hx. contradiction.
      * intros t' a' Hin. apply Hg. unfold ev_words. cbn [flat_map]. rewrite Es. exact Hin.
    + assert (Hne : tx t <> []) by (intros C; unfold is_space in Es; rewrite C in Es; discriminate).
      rewrite pm_word, last_e_word by assumption. fold (word_marks (tx t) (V a) (newly prev (E a))).
      assert (Hga : good t a) by (apply Hg; unfold ev_words; cbn [flat_map]; rewrite Es; now left).
      pose proof (good_E t a Hga) as HEa.
      assert (Hfl : newly prev (E a) = fresh_word pw t a).
      { unfold ready in Hr. cbn [next_word] in Hr. rewrite Es in Hr. cbv zeta in Hr. rewrite HEa. unfold fresh_word, newly.
        destruct (Nat.eqb (length (main_path t)) 0) eqn:E0; [reflexivity|]. cbn [negb andb].
        apply Nat.eqb_neq in E0. specialize (Hr ltac:(lia)).
        destruct (prefixb (firstn (length (main_path t)) a) pw) eqn:Epb.
        - apply prefixb_true in Epb. apply Hr in Epb. rewrite Epb. now rewrite addr_eqb_refl.
        - destruct prev as [y|]; [|reflexivity]. destruct (addr_eqb y _) eqn:Ey; [|reflexivity].
          apply addr_eqb_true in Ey. subst y. destruct Hr as [Hr _]. specialize (Hr eq_refl).
          apply prefixb_true in Hr. congruence. }
      rewrite Hfl. f_equal. apply IH; auto.
      * unfold ready. destruct (next_word sp evs) as [[w b]|] eqn:En; [|exact I]. cbv zeta. intros Hn.
        assert (Hgw : good w b).
        { apply Hg. unfold ev_words. cbn [flat_map]. rewrite Es. right. now apply next_word_in. }
        destruct Hgw as (G1 & _ & G3). destruct (G3 Hn) as [G4 G5]. split.
        -- intros H. apply E_some in H. tauto.
        -- intros H. apply E_at; auto. intros C. apply (f_equal (@length _)) in C. rewrite firstn_length in C. cbn in C. lia.
      * intros t' a' Hin. apply Hg. unfold ev_words. cbn [flat_map]. rewrite Es. now right.
  - cbn [flat_map flat_ev app pm filter inked3 evm placed spaced] in *. f_equal. apply IH; auto. tauto.
Qed.
End Marks.
