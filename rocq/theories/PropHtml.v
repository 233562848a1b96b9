(** C128: mark-up repair of texts. *)
From Verif Require Import Base ModelFixXml PropFixXml ModelHtml.
Open Scope list_scope.
Open Scope nat_scope.

(* ---------------------------------------------------------------- *)
(** ** Plain mark-up *)
Record attr := mkAttr { at_space : str; at_name : str; at_quote : N; at_raw : str }.
Inductive piece :=
| PText (s : str)
| PLt
| PStart (name : str) (attrs : list attr) (space : str) (closed : bool)
| PEnd (name space : str)
| PComment (body : str)
| PPi (body : str).

Definition blanks (s : str) : Prop := Forall (fun c => In c [9; 10; 13; 32]%N) s.
Definition letter (c : N) : Prop := (65 <= c <= 90 \/ 97 <= c <= 122)%N.
Definition name_rest (s : str) : Prop := Forall (fun c => letter c \/ (48 <= c <= 57)%N \/ In c [45; 46; 58; 95]%N) s.
Definition element_name (n : str) : Prop := exists c r, n = c :: r /\ letter c /\ name_rest r.
Definition attr_name (n : str) : Prop := exists c r, n = c :: r /\ (letter c \/ c = 95%N \/ c = 58%N) /\ name_rest r.
(** capital letters made small *)
Definition small_letters (n : str) : str := map (fun c => if ((65 <=? c) && (c <=? 90))%N then (c + 32)%N else c) n.
Definition attr_ok (a : attr) : Prop :=
  at_space a <> [] /\ blanks (at_space a) /\ attr_name (at_name a) /\ (at_quote a = 34%N \/ at_quote a = 39%N) /\ ~ In (at_quote a) (at_raw a).
Definition piece_ok (p : piece) : Prop :=
  match p with
  | PText s => s <> [] /\ ~ In 60%N s
  | PLt => True
  | PStart n l w closed => element_name n /\ Forall attr_ok l /\ blanks w /\
      (closed = true \/ small_letters n <> u "script" /\ small_letters n <> u "style")
  | PEnd n w => element_name n /\ blanks w
  | PComment b => (forall x y, b <> x ++ u "--" ++ y) /\ (forall x, b <> x ++ u "-")
  | PPi b => ~ In 62%N b
  end.
Definition attr_text (a : attr) : str := at_space a ++ at_name a ++ u "=" ++ [at_quote a] ++ at_raw a ++ [at_quote a].
Definition piece_text (p : piece) : str :=
  match p with
  | PText s => s
  | PLt => u "<"
  | PStart n l w closed => u "<" ++ n ++ flat_map attr_text l ++ w ++ (if closed then u "/>" else u ">")
  | PEnd n w => u "</" ++ n ++ w ++ u ">"
  | PComment b => u "<!--" ++ b ++ u "-->"
  | PPi b => u "<?" ++ b ++ u ">"
  end.
Definition text (ps : list piece) : str := flat_map piece_text ps.
(** texts are as long as possible, and a single "<" starts nothing else *)
Definition follows (p : piece) (rest : str) : Prop :=
  match p with
  | PText _ => forall c r, rest = c :: r -> c = 60%N
  | PLt => forall c r, rest = c :: r -> ~ letter c /\ ~ In c [47; 63; 33]%N
  | _ => True
  end.
Fixpoint plain_markup (ps : list piece) : Prop :=
  match ps with [] => True | p :: ps' => piece_ok p /\ follows p (text ps') /\ plain_markup ps' end.

Section Events.
Variable unescape : str -> str.
Definition read_attr (a : attr) : str * ostr := (small_letters (at_name a), Some (match at_raw a with [] => [] | v => unescape v end)).
Definition piece_events (p : piece) : list event :=
  match p with
  | PText s => [EData (unescape s)]
  | PLt => [EData (u "<")]
  | PStart n l _ closed => EStart (small_letters n) (map read_attr l) :: (if closed then [EEnd (small_letters n)] else [])
  | PEnd n _ => [EEnd (small_letters n)]
  | PComment b | PPi b => [EIgnored b]
  end.
Definition events_of (ps : list piece) : list event := flat_map piece_events ps.

(* ---------------------------------------------------------------- *)
(** ** Characters and runs *)
Lemma is_letter_spec c : is_letter c = true <-> letter c.
Proof. unfold is_letter, letter. rewrite Bool.orb_true_iff, !Bool.andb_true_iff, !N.leb_le. tauto. Qed.
Lemma name_char_spec c : name_char c = true <-> letter c \/ (48 <= c <= 57)%N \/ In c [45; 46; 58; 95]%N.
Proof.
  unfold name_char. rewrite Bool.orb_true_iff, is_letter_spec, !Bool.orb_true_iff, Bool.andb_true_iff, !N.leb_le, !N.eqb_eq. cbn [In].
  intuition (subst; auto 10).
Qed.
Lemma attr_start_spec c : attr_start c = true <-> letter c \/ c = 95%N \/ c = 58%N.
Proof. unfold attr_start. rewrite Bool.orb_true_iff, is_letter_spec, Bool.orb_true_iff, !N.eqb_eq. tauto. Qed.
Lemma tag_space_spec c : tag_space c = true <-> In c [9; 10; 13; 32]%N.
Proof. unfold tag_space. rewrite !Bool.orb_true_iff, !N.eqb_eq. cbn [In]. intuition (subst; auto 10). Qed.
Lemma span_spec p s : forall a b, span p s = (a, b) <-> s = a ++ b /\ Forall (fun c => p c = true) a /\ (forall c r, b = c :: r -> p c = false).
Proof.
  induction s as [|x s IH]; intros a b; cbn [span].
  - split; [intros [= <- <-]; repeat split; auto; discriminate|]. intros (E & _ & _). symmetry in E. apply app_eq_nil in E as [-> ->]. reflexivity.
  - destruct (p x) eqn:Ex.
    + destruct (span p s) as [a' b'] eqn:Es. destruct (proj1 (IH a' b') eq_refl) as (E1 & E2 & E3). split.
      * intros [= <- <-]. subst s. repeat split; auto.
      * intros (E & H1 & H2). destruct a as [|y a].
        -- cbn [app] in E. subst b. specialize (H2 x s eq_refl). congruence.
        -- injection E as <- E. pose proof (Forall_inv_tail H1) as H1t. assert (K : (a', b') = (a, b)) by (apply (proj2 (IH a b)); auto). injection K as -> ->. reflexivity.
    + split; [intros [= <- <-]; repeat split; auto; intros c r [= <- <-]; exact Ex|].
      intros (E & H1 & H2). destruct a as [|y a]; [cbn [app] in E; now subst b|]. injection E as <- E. inversion H1; subst. congruence.
Qed.
Lemma span_all {A} (P : A -> Prop) (p : A -> bool) l : (forall c, p c = true <-> P c) -> Forall (fun c => p c = true) l <-> Forall P l.
Proof. intros H. split; apply Forall_impl; intros c; apply H. Qed.
Lemma span_not q s a b : span (fun c => negb (N.eqb c q)) s = (a, b) <-> s = a ++ b /\ ~ In q a /\ (forall c r, b = c :: r -> c = q).
Proof.
  rewrite span_spec. split; intros (H1 & H2 & H3); repeat split; auto.
  - intros K. rewrite Forall_forall in H2. apply H2 in K. rewrite N.eqb_refl in K. discriminate.
  - intros c r E. apply H3 in E. now apply Bool.negb_false_iff, N.eqb_eq in E.
  - apply Forall_forall. intros c Hc. apply Bool.negb_true_iff, N.eqb_neq. intros ->. contradiction.
  - intros c r E. apply H3 in E. subst c. now rewrite N.eqb_refl.
Qed.
Lemma p_name_spec start P s n r : (forall c, start c = true <-> P c) ->
  p_name start s = Some (n, r) <-> s = n ++ r /\ (exists c m, n = c :: m /\ P c /\ name_rest m) /\ (forall c r', r = c :: r' -> name_char c = false).
Proof.
  intros HP. unfold p_name. destruct s as [|x s]; [split; [discriminate|]; intros (E & (c & m & -> & _) & _); discriminate|].
  destruct (start x) eqn:Ex.
  - destruct (span name_char s) as [a b] eqn:Es. pose proof Es as Es0. apply span_spec in Es as (E1 & E2 & E3).
    split.
    + intros [= <- <-]. subst s. split; [reflexivity|]. split; [|exact E3]. exists x, a. split; [reflexivity|]. split; [now apply HP|].
      revert E2. apply Forall_impl. intros c. apply name_char_spec.
    + intros (E & (c & m & -> & Hc & Hm) & H3). injection E as <- E.
      assert (K : (a, b) = (m, r)).
      { rewrite <- Es0. apply span_spec. split; [exact E|]. split; [|exact H3]. revert Hm. apply Forall_impl. intros y. apply name_char_spec. }
      injection K as -> ->. reflexivity.
  - split; [discriminate|]. intros (E & (c & m & -> & Hc & _) & _). injection E as <- _. apply HP in Hc. congruence.
Qed.
Lemma p_name_none start s : p_name start s = None <-> forall c r, s = c :: r -> start c = false.
Proof.
  unfold p_name. destruct s as [|x s]; [split; [discriminate|reflexivity]|]. destruct (start x) eqn:E.
  - destruct (span name_char s). split; [discriminate|]. intros H. specialize (H x s eq_refl). congruence.
  - split; [intros _ c r [= <- <-]; exact E|reflexivity].
Qed.

(* ---------------------------------------------------------------- *)
(** ** Start tags *)
Lemma blanks_spec w : Forall (fun c => tag_space c = true) w <-> blanks w.
Proof. apply span_all. intros c. apply tag_space_spec. Qed.
Lemma blank_not_name c : tag_space c = true -> name_char c = false /\ attr_start c = false.
Proof. rewrite tag_space_spec. cbn [In]. intros H. repeat (destruct H as [<-|H]; [now split|]). contradiction. Qed.
Lemma attr_start_name c : attr_start c = true -> name_char c = true /\ tag_space c = false.
Proof.
  intros H. split.
  - apply attr_start_spec in H. apply name_char_spec. cbn [In]. intuition (subst; auto 10).
  - destruct (tag_space c) eqn:E; [|reflexivity]. apply blank_not_name in E as [_ E]. congruence.
Qed.
Definition tag_end (w : str) (closed : bool) : str := w ++ (if closed then u "/>" else u ">").
Lemma is_quote_spec q : is_quote q = true <-> q = 34%N \/ q = 39%N.
Proof. unfold is_quote, DQ, SQ. rewrite Bool.orb_true_iff, !N.eqb_eq. tauto. Qed.

Lemma read_attr_eq a : read_attr a = (small_letters (at_name a), Some (attr_value unescape (at_raw a))).
Proof. unfold read_attr, attr_value. now destruct (at_raw a). Qed.

Lemma attr_text_app a rest : attr_text a ++ rest = at_space a ++ at_name a ++ EQUALS :: at_quote a :: at_raw a ++ at_quote a :: rest.
Proof. unfold attr_text. rewrite <- !app_assoc. reflexivity. Qed.
Lemma p_attrs_sound f : forall s l closed r, p_attrs unescape f s = Some (l, closed, r) ->
  exists l' w, l = map read_attr l' /\ s = flat_map attr_text l' ++ tag_end w closed ++ r /\ Forall attr_ok l' /\ blanks w.
Proof.
  induction f as [|f IH]; intros s l closed r H; cbn [p_attrs] in H; [discriminate|].
  destruct (span tag_space s) as [w r0] eqn:Es. apply span_spec in Es as (-> & Hw & Hr0). apply blanks_spec in Hw.
  destruct (p_name attr_start r0) as [[n r1]|] eqn:En.
  - apply (p_name_spec _ _ _ _ _ attr_start_spec) in En as (-> & Hn & Hn').
    destruct r1 as [|e [|q r1]]; try discriminate. destruct (negb (streq w []) && N.eqb e EQUALS && is_quote q) eqn:Ec; [|discriminate].
    apply Bool.andb_true_iff in Ec as [Ec Eq]. apply Bool.andb_true_iff in Ec as [Ew Ee]. apply Bool.negb_true_iff, streq_false in Ew.
    apply N.eqb_eq in Ee. subst e. apply is_quote_spec in Eq.
    destruct (span (fun c => negb (N.eqb c q)) r1) as [v r2] eqn:Ev. apply span_not in Ev as (-> & Hv & Hv').
    destruct r2 as [|q' r2]; [discriminate|]. specialize (Hv' q' r2 eq_refl). subst q'.
    destruct (p_attrs unescape f r2) as [[[l0 closed0] r3]|] eqn:Ea; [|discriminate]. injection H as <- <- <-.
    apply IH in Ea as (l' & w' & -> & -> & Hl & Hw').
    exists (mkAttr w n q v :: l'), w'. split; [cbn [map]; rewrite read_attr_eq; reflexivity|]. split; [|split; [|exact Hw']].
    + cbn [flat_map]. rewrite <- app_assoc, attr_text_app. reflexivity.
    + constructor; [|exact Hl]. repeat split; auto.
  - destruct r0 as [|c r0]; [discriminate|]. destruct (N.eqb_spec c GT) as [->|_].
    + injection H as <- <- <-. exists [], w. split; [reflexivity|]. split; [|split; [constructor|exact Hw]]. cbn [flat_map app]. unfold tag_end. now rewrite <- app_assoc.
    + destruct r0 as [|c' r0]; [discriminate|]. destruct (N.eqb_spec c DIV) as [->|_]; [|discriminate]. destruct (N.eqb_spec c' GT) as [->|_]; [|discriminate].
      injection H as <- <- <-. exists [], w. split; [reflexivity|]. split; [|split; [constructor|exact Hw]]. cbn [flat_map app]. unfold tag_end. now rewrite <- app_assoc.
Qed.
Lemma p_attrs_complete l : forall f w closed r, Forall attr_ok l -> blanks w -> length (flat_map attr_text l ++ tag_end w closed ++ r) < f ->
  p_attrs unescape f (flat_map attr_text l ++ tag_end w closed ++ r) = Some (map read_attr l, closed, r).
Proof.
  induction l as [|a l IH]; intros f w closed r Hl Hw Hf; (destruct f as [|f]; [lia|]).
  - cbn [flat_map app] in *. cbn [p_attrs]. unfold tag_end. rewrite <- app_assoc.
    assert (E : span tag_space (w ++ (if closed then u "/>" else u ">") ++ r) = (w, (if closed then u "/>" else u ">") ++ r)).
    { apply span_spec. split; [reflexivity|]. split; [now apply blanks_spec|]. intros c r'. destruct closed; intros [= <- _]; reflexivity. }
    rewrite E. destruct closed; reflexivity.
  - inversion Hl as [|a' l' (H1 & H2 & H3 & H4 & H5) Hl']; subst. cbn [flat_map] in *. rewrite <- app_assoc, attr_text_app in *. destruct a as [aw an aq av]. cbn [at_space at_name at_quote at_raw] in *.
    cbn [p_attrs].
    set (rest := flat_map attr_text l ++ tag_end w closed ++ r) in *.
    assert (E : span tag_space (aw ++ an ++ EQUALS :: aq :: av ++ aq :: rest) = (aw, an ++ EQUALS :: aq :: av ++ aq :: rest)).
    { apply span_spec. split; [reflexivity|]. split; [now apply blanks_spec|]. destruct H3 as (c & m & -> & Hc & _). intros c' r' [= <- _].
      apply attr_start_spec in Hc. now apply attr_start_name in Hc. }
    rewrite E.
    assert (E2 : p_name attr_start (an ++ EQUALS :: aq :: av ++ aq :: rest) = Some (an, EQUALS :: aq :: av ++ aq :: rest)).
    { apply (p_name_spec _ _ _ _ _ attr_start_spec). split; [reflexivity|]. split; [exact H3|]. intros c r' [= <- _]. reflexivity. }
    rewrite E2. rewrite N.eqb_refl. replace (is_quote aq) with true by (symmetry; now apply is_quote_spec).
    replace (streq aw []) with false by (symmetry; now apply streq_false). cbn [negb andb].
    assert (E3 : span (fun c => negb (N.eqb c aq)) (av ++ aq :: rest) = (av, aq :: rest)).
    { apply span_not. split; [reflexivity|]. split; [exact H5|]. now intros c r' [= <- _]. }
    rewrite E3. unfold rest. rewrite IH; auto.
    { cbn [map]. now rewrite read_attr_eq. } rewrite app_length, app_length in Hf. cbn [length] in Hf. rewrite app_length in Hf. cbn [length] in Hf. subst rest. lia.
Qed.

(* ---------------------------------------------------------------- *)
(** ** Comments *)
Lemma until_dashes_spec s : forall a b, until_dashes s = Some (a, b) <-> s = a ++ u "--" ++ b /\ (forall x y, a <> x ++ u "--" ++ y) /\ (forall x, a <> x ++ u "-").
Proof.
  induction s as [|c s IH]; intros a b; cbn [until_dashes].
  - split; [discriminate|]. intros (E & _). symmetry in E. apply app_eq_nil in E as [_ E]. discriminate.
  - destruct s as [|c' s].
    + split; [discriminate|]. intros (E & _). destruct a as [|? [|? a]]; discriminate.
    + destruct (N.eqb c DASH && N.eqb c' DASH) eqn:Ec.
      * apply Bool.andb_true_iff in Ec as [E1 E2]. apply N.eqb_eq in E1, E2. subst c c'. split.
        -- intros [= <- <-]. split; [reflexivity|]. split; [intros [|? x] y E; discriminate|intros [|? x] E; discriminate].
        -- intros (E & H1 & H2). destruct a as [|x [|y a]].
           ++ change (DASH :: DASH :: s = DASH :: DASH :: b) in E. injection E as ->. reflexivity.
           ++ change (DASH :: DASH :: s = x :: DASH :: DASH :: b) in E. injection E as <- _. exfalso. now apply (H2 []).
           ++ cbn [app] in E. injection E as <- <- _. exfalso. now apply (H1 [] a).
      * destruct (until_dashes (c' :: s)) as [[a' b']|] eqn:Ed.
        -- destruct (proj1 (IH a' b') eq_refl) as (E & H1 & H2). split.
           ++ intros [= <- <-]. split; [now rewrite E|]. split.
              ** intros [|z x] y K; cbn [app] in K.
                 --- change (u "--" ++ y) with (DASH :: DASH :: y) in K. destruct a' as [|a0 a']; [discriminate|]. injection K as -> -> _.
                     cbn [app] in E. injection E as -> _. discriminate.
                 --- injection K as _ K. now apply (H1 x y).
              ** intros [|z x] K; cbn [app] in K.
                 --- change (u "-") with [DASH] in K. injection K as -> ->. change (c' :: s = DASH :: DASH :: b') in E. injection E as -> _. discriminate.
                 --- injection K as _ K. now apply (H2 x).
           ++ intros (E' & H1' & H2'). destruct a as [|x a].
              ** change (c :: c' :: s = DASH :: DASH :: b) in E'. injection E' as -> -> _. discriminate.
              ** injection E' as <- E'. assert (K : Some (a', b') = Some (a, b)).
                 { apply (proj2 (IH a b)). split; [exact E'|]. split; [intros p q ->; now apply (H1' (c :: p) q)|intros p ->; now apply (H2' (c :: p))]. }
                 injection K as -> ->. reflexivity.
        -- split; [discriminate|]. intros (E' & H1' & H2'). destruct a as [|x a].
           ++ change (c :: c' :: s = DASH :: DASH :: b) in E'. injection E' as -> -> _. discriminate.
           ++ injection E' as <- E'. assert (K : None = Some (a, b)); [|discriminate].
              apply (proj2 (IH a b)). split; [exact E'|]. split; [intros p q ->; now apply (H1' (c :: p) q)|intros p ->; now apply (H2' (c :: p))].
Qed.

(* ---------------------------------------------------------------- *)
(** ** Pieces *)
Lemma cdata_spec n : cdata_element n = false <-> n <> u "script" /\ n <> u "style".
Proof. unfold cdata_element. rewrite Bool.orb_false_iff, !streq_false. tauto. Qed.
Lemma letter_facts c : letter c -> c <> 60%N /\ is_letter c = true.
Proof. intros H. split; [unfold letter in H; lia|now apply is_letter_spec]. Qed.

Lemma p_piece_sound s es r : p_piece unescape s = Some (es, r) ->
  exists p, piece_ok p /\ s = piece_text p ++ r /\ follows p r /\ es = piece_events p.
Proof.
  unfold p_piece. destruct s as [|c s]; [discriminate|]. destruct (N.eqb_spec c LT) as [->|Hc].
  - destruct s as [|c' s]; [intros [= <- <-]; exists PLt; repeat split; discriminate|].
    destruct (is_letter c') eqn:El.
    + unfold p_start. destruct (p_name is_letter (c' :: s)) as [[n r0]|] eqn:En; [|discriminate].
      apply (p_name_spec _ _ _ _ _ is_letter_spec) in En as (E & Hn & Hn'). rewrite E.
      destruct (p_attrs unescape (S (length r0)) r0) as [[[l closed] r']|] eqn:Ea; [|discriminate].
      apply p_attrs_sound in Ea as (l' & w & -> & -> & Hl & Hw).
      intros H. assert (K : (closed = true \/ small_letters n <> u "script" /\ small_letters n <> u "style") /\ r' = r /\ es = piece_events (PStart n l' w closed)).
      { change (lower_name n) with (small_letters n) in H. destruct closed; [injection H as <- <-; auto|]. destruct (cdata_element (small_letters n)) eqn:Ed; [discriminate|]. apply cdata_spec in Ed. injection H as <- <-. auto. }
      destruct K as (K & -> & ->). exists (PStart n l' w closed). split; [repeat split; auto; now apply Hw|]. split; [|split; [exact I|reflexivity]].
      cbn [piece_text]. unfold tag_end. change (u "<") with [LT]. rewrite <- !app_assoc. reflexivity.
    + destruct (N.eqb_spec c' DIV) as [->|H1].
      { unfold p_end. destruct (p_name is_letter s) as [[n r0]|] eqn:En; [|discriminate].
        apply (p_name_spec _ _ _ _ _ is_letter_spec) in En as (-> & Hn & Hn').
        destruct (span tag_space r0) as [w r1] eqn:Es. apply span_spec in Es as (-> & Hw & _). cbn [snd].
        destruct r1 as [|g r1]; [discriminate|]. destruct (N.eqb_spec g GT) as [->|_]; [|discriminate]. intros [= <- <-].
        exists (PEnd n w). split; [split; [exact Hn|now apply blanks_spec]|]. split; [|split; [exact I|reflexivity]].
        cbn [piece_text]. change (u "</") with [LT; DIV]. change (u ">") with [GT]. rewrite <- !app_assoc. reflexivity. }
      destruct (N.eqb_spec c' 63) as [->|H2].
      { unfold p_pi. destruct (span _ s) as [b r0] eqn:Es. apply span_not in Es as (-> & Hb & Hb'). destruct r0 as [|g r0]; [discriminate|].
        specialize (Hb' g r0 eq_refl). subst g. intros [= <- <-]. exists (PPi b). split; [exact Hb|]. split; [|split; [exact I|reflexivity]].
        cbn [piece_text]. change (u "<?") with [LT; 63%N]. change (u ">") with [GT]. rewrite <- !app_assoc. reflexivity. }
      destruct (N.eqb_spec c' 33) as [->|H3].
      { unfold p_comment. destruct s as [|a [|b s]]; try discriminate. destruct (N.eqb_spec a DASH) as [->|_]; [|discriminate]. destruct (N.eqb_spec b DASH) as [->|_]; [|discriminate].
        cbn [andb]. destruct (until_dashes s) as [[body r0]|] eqn:Ed; [|discriminate]. apply until_dashes_spec in Ed as (-> & Hb1 & Hb2).
        destruct r0 as [|g r0]; [discriminate|]. destruct (N.eqb_spec g GT) as [->|_]; [|discriminate]. intros [= <- <-].
        exists (PComment body). split; [split; assumption|]. split; [|split; [exact I|reflexivity]].
        cbn [piece_text]. change (u "<!--") with [LT; 33%N; DASH; DASH]. change (u "-->") with (u "--" ++ [GT]). rewrite <- !app_assoc. reflexivity. }
      intros [= <- <-]. exists PLt. split; [exact I|]. split; [reflexivity|]. split; [|reflexivity]. intros x y [= <- <-]. split.
      * intros K. apply is_letter_spec in K. congruence.
      * cbn [In]. intros [K|[K|[K|[]]]]; [now apply H1|now apply H2|now apply H3].
  - destruct (span _ (c :: s)) as [t r'] eqn:Es. apply span_not in Es as (E & H1 & H2). intros [= <- <-].
    exists (PText t). split; [|split; [exact E|split; [exact H2|reflexivity]]]. split; [|exact H1].
    intros ->. cbn [app] in E. symmetry in E. specialize (H2 c s E). contradiction.
Qed.
Lemma p_piece_complete p r : piece_ok p -> follows p r -> p_piece unescape (piece_text p ++ r) = Some (piece_events p, r).
Proof.
  intros Hp Hr. destruct p as [s| |n l w closed|n w|b|b]; cbn [piece_text piece_events piece_ok follows] in *.
  - destruct Hp as [Hne Hlt]. destruct s as [|c s]; [contradiction|]. unfold p_piece. cbn [app].
    destruct (N.eqb_spec c LT) as [->|Hc]; [exfalso; apply Hlt; now left|].
    assert (E : span (fun c => negb (N.eqb c LT)) (c :: s ++ r) = (c :: s, r)) by (apply span_not; auto). rewrite E. reflexivity.
  - change (u "<") with [LT]. unfold p_piece. cbn [app]. rewrite N.eqb_refl. destruct r as [|c r]; [reflexivity|]. destruct (Hr c r eq_refl) as [K1 K2].
    destruct (is_letter c) eqn:E; [apply is_letter_spec in E; contradiction|]. cbn [In] in K2.
    destruct (N.eqb_spec c DIV) as [->|]; [exfalso; apply K2; now left|]. destruct (N.eqb_spec c 63) as [->|]; [exfalso; apply K2; auto|].
    destruct (N.eqb_spec c 33) as [->|]; [exfalso; apply K2; auto|]. reflexivity.
  - destruct Hp as (Hn & Hl & Hw & Hc). change (u "<") with [LT]. rewrite <- !app_assoc. cbn [app].
    set (rest := flat_map attr_text l ++ w ++ (if closed then u "/>" else u ">") ++ r).
    assert (Er : rest = flat_map attr_text l ++ tag_end w closed ++ r) by (unfold rest, tag_end; now rewrite <- app_assoc).
    unfold p_piece. rewrite N.eqb_refl. pose proof Hn as (c & m & En & Hc' & Hm). pose proof (proj2 (letter_facts c Hc')) as Lc.
    assert (E : p_start unescape (n ++ rest) = Some (EStart (small_letters n) (map read_attr l) :: (if closed then [EEnd (small_letters n)] else []), r)).
    { unfold p_start. change lower_name with small_letters. assert (E : p_name is_letter (n ++ rest) = Some (n, rest)).
      { apply (p_name_spec _ _ _ _ _ is_letter_spec). split; [reflexivity|]. split; [exact Hn|]. intros x y Ex. rewrite Er in Ex.
        destruct l as [|a l].
        - cbn [flat_map app] in Ex. unfold tag_end in Ex. destruct w as [|w0 w]; [destruct closed; injection Ex as <- _; reflexivity|].
          injection Ex as <- _. inversion Hw as [|? ? Hw0 _]; subst. apply blank_not_name. now apply tag_space_spec.
        - inversion Hl as [|a' l' (A1 & A2 & _) Hl']; subst. cbn [flat_map] in Ex. unfold attr_text at 1 in Ex. destruct (at_space a) as [|a0 aw]; [contradiction|].
          injection Ex as <- _. inversion A2 as [|? ? A20 _]; subst. apply blank_not_name. now apply tag_space_spec. }
      rewrite E. rewrite Er. rewrite p_attrs_complete; auto. destruct closed; [reflexivity|]. destruct Hc as [Hc|Hc]; [discriminate|].
      apply cdata_spec in Hc. now rewrite Hc. }
    rewrite En in *. cbn [app] in *. rewrite Lc. exact E.
  - destruct Hp as (Hn & Hw). change (u "</") with [LT; DIV]. change (u ">") with [GT]. rewrite <- !app_assoc. cbn [app]. unfold p_piece. rewrite N.eqb_refl.
    change (is_letter DIV) with false. rewrite N.eqb_refl. cbv iota. unfold p_end.
    assert (E : p_name is_letter (n ++ w ++ GT :: r) = Some (n, w ++ GT :: r)).
    { apply (p_name_spec _ _ _ _ _ is_letter_spec). split; [reflexivity|]. split; [exact Hn|]. intros x y Ex. destruct w as [|w0 w]; [injection Ex as <- _; reflexivity|].
      injection Ex as <- _. inversion Hw as [|? ? Hw0 _]; subst. apply blank_not_name. now apply tag_space_spec. }
    rewrite E. assert (E2 : span tag_space (w ++ GT :: r) = (w, GT :: r)).
    { apply span_spec. split; [reflexivity|]. split; [now apply blanks_spec|]. intros x y [= <- _]. reflexivity. }
    rewrite E2. cbn [snd]. rewrite N.eqb_refl. reflexivity.
  - destruct Hp as (H1 & H2). change (u "<!--") with [LT; 33%N; DASH; DASH]. change (u "-->") with (u "--" ++ [GT]). rewrite <- !app_assoc. cbn [app]. unfold p_piece. rewrite N.eqb_refl.
    change (is_letter 33) with false. change (N.eqb 33 DIV) with false. change (N.eqb 33 63) with false. cbv iota. rewrite N.eqb_refl. unfold p_comment. rewrite !N.eqb_refl. cbn [andb].
    assert (E : until_dashes (b ++ u "--" ++ GT :: r) = Some (b, GT :: r)) by (apply until_dashes_spec; auto). cbn [app] in E. rewrite E. rewrite N.eqb_refl. reflexivity.
  - change (u "<?") with [LT; 63%N]. change (u ">") with [GT]. rewrite <- !app_assoc. cbn [app]. unfold p_piece. rewrite N.eqb_refl.
    change (is_letter 63) with false. change (N.eqb 63 DIV) with false. cbv iota. rewrite N.eqb_refl. unfold p_pi.
    assert (E : span (fun c => negb (N.eqb c GT)) (b ++ GT :: r) = (b, GT :: r)).
    { apply span_not. split; [reflexivity|]. split; [exact Hp|]. now intros x y [= <- _]. }
    rewrite E. reflexivity.
Qed.
Lemma piece_nonempty p : piece_ok p -> piece_text p <> [].
Proof. destruct p; cbn [piece_ok piece_text]; try discriminate. intros [H _]. exact H. Qed.
Lemma pieces_sound f : forall s es, p_pieces unescape f s = Some es -> exists ps, plain_markup ps /\ s = text ps /\ es = events_of ps.
Proof.
  induction f as [|f IH]; intros s es H; destruct s as [|c s]; cbn [p_pieces] in H; try (injection H as <-; now exists []); try discriminate.
  destruct (p_piece unescape (c :: s)) as [[es0 r]|] eqn:Ep; [|discriminate]. apply p_piece_sound in Ep as (p & Hp & E & Hr & ->).
  destruct (p_pieces unescape f r) as [es1|] eqn:Er; [|discriminate]. injection H as <-. apply IH in Er as (ps & Hps & -> & ->).
  exists (p :: ps). split; [split; [exact Hp|split; assumption]|]. split; [exact E|reflexivity].
Qed.
Lemma pieces_complete ps : forall f, plain_markup ps -> length (text ps) <= f -> p_pieces unescape f (text ps) = Some (events_of ps).
Proof.
  induction ps as [|p ps IH]; intros f H Hf; [now destruct f|]. destruct H as (Hp & Hr & Hps).
  change (text (p :: ps)) with (piece_text p ++ text ps) in *. change (events_of (p :: ps)) with (piece_events p ++ events_of ps).
  pose proof (piece_nonempty p Hp) as Hne. pose proof (p_piece_complete p (text ps) Hp Hr) as E. rewrite app_length in Hf.
  destruct (piece_text p) as [|c t] eqn:Et; [contradiction|]. cbn [length] in Hf. destruct f as [|f]; [lia|].
  cbn [app] in *. cbn [p_pieces]. rewrite E. rewrite IH; auto. lia.
Qed.

(** The text is read exactly if it is plain mark-up, and the events are those of its pieces. *)
Theorem C128_reads s es : html_events unescape s = Some es <-> exists ps, plain_markup ps /\ s = text ps /\ es = events_of ps.
Proof.
  unfold html_events. split; [apply pieces_sound|]. intros (ps & H & -> & ->). now apply pieces_complete.
Qed.
End Events.

(* ---------------------------------------------------------------- *)
(** ** Repair *)
(** what is shown of a text: start tags and texts *)
Definition shown (unescape : str -> str) (p : piece) : list event :=
  match p with
  | PText s => [EData (unescape s)]
  | PLt => [EData (u "<")]
  | PStart n l _ _ => [EStart (small_letters n) (map (read_attr unescape) l)]
  | PEnd _ _ | PComment _ | PPi _ => []
  end.
Lemma shown_events unescape ps : starts_and_texts (events_of unescape ps) = flat_map (shown unescape) ps.
Proof.
  unfold starts_and_texts, events_of. induction ps as [|p ps IH]; [reflexivity|]. cbn [flat_map]. rewrite filter_app, IH.
  f_equal. destruct p as [s| |n l w c|n w|b|b]; try reflexivity. now destruct c.
Qed.
Lemma fix_total unescape ps : exists out, fix_events (events_of unescape ps) = Ok out.
Proof.
  destruct (fix_events (events_of unescape ps)) as [out|e] eqn:E; [eauto|]. exfalso.
  destruct (proj1 (C50_error (events_of unescape ps))) as (t & a & k & H & K); [eauto|].
  unfold events_of in H. apply in_flat_map in H as (p & _ & H). destruct p as [s| |n l w c|n w|b|b]; cbn [piece_events] in H.
  - destruct H as [H|[]]. discriminate.
  - destruct H as [H|[]]. discriminate.
  - destruct H as [H|H].
    + injection H as _ <-. apply in_map_iff in K as (x & K & _). unfold read_attr in K. discriminate.
    + destruct c; [destruct H as [H|[]]; discriminate|contradiction].
  - destruct H as [H|[]]. discriminate.
  - destruct H as [H|[]]. discriminate.
  - destruct H as [H|[]]. discriminate.
Qed.

(** Repairing plain mark-up always succeeds; the result is well nested and has the start tags,
    with lower-case names, and the texts of the input, in order. *)
Theorem C128_repair unescape valid events ps :
  plain_markup ps -> valid (text ps) = false -> html_events unescape (text ps) = Some (events (text ps)) ->
  exists f, get_fixed_xml valid events (text ps) = Ok (markup f) /\ flat_map flow f = flat_map (shown unescape) ps.
Proof.
  intros H V E. assert (K : html_events unescape (text ps) = Some (events_of unescape ps)) by (apply C128_reads; eauto).
  rewrite K in E. injection E as E. unfold get_fixed_xml. rewrite V, <- E. destruct (fix_total unescape ps) as [out Eo].
  rewrite Eo. destruct (C50_well_nested _ _ Eo) as (f & -> & F). exists f. split; [reflexivity|]. now rewrite F, shown_events.
Qed.

(* ---------------------------------------------------------------- *)
(** ** Repairing twice *)
Lemma lower_char c : letter c -> letter (if ((65 <=? c) && (c <=? 90))%N then (c + 32)%N else c).
Proof.
  unfold letter. intros H. destruct ((65 <=? c) && (c <=? 90))%N eqn:E; [|exact H].
  apply Bool.andb_true_iff in E as [E1 E2]. apply N.leb_le in E1, E2. lia.
Qed.
Lemma lower_other c : ~ letter c -> (if ((65 <=? c) && (c <=? 90))%N then (c + 32)%N else c) = c.
Proof.
  intros H. destruct ((65 <=? c) && (c <=? 90))%N eqn:E; [|reflexivity].
  apply Bool.andb_true_iff in E as [E1 E2]. apply N.leb_le in E1, E2. exfalso. apply H. left. lia.
Qed.
Lemma lower_again n : small_letters (small_letters n) = small_letters n.
Proof.
  unfold small_letters. rewrite map_map. apply map_ext. intros c. destruct ((65 <=? c) && (c <=? 90))%N eqn:E; [|now rewrite E].
  apply Bool.andb_true_iff in E as [E1 E2]. apply N.leb_le in E1, E2.
  replace ((c + 32 <=? 90)%N) with false by (symmetry; apply N.leb_gt; lia). now rewrite Bool.andb_false_r.
Qed.
Lemma lower_rest n : name_rest n -> name_rest (small_letters n).
Proof.
  intros H. unfold name_rest, small_letters. rewrite Forall_map. apply (Forall_impl _ (P := fun c => letter c \/ (48 <= c <= 57)%N \/ In c [45; 46; 58; 95]%N)); [|exact H].
  intros c [K|K]; [left; now apply lower_char|]. assert (~ letter c).
  { unfold letter. cbn [In] in K. intuition (subst; lia). }
  rewrite lower_other by assumption. now right.
Qed.
Lemma lower_element n : element_name n -> element_name (small_letters n).
Proof. intros (c & r & -> & H1 & H2). eexists; eexists. split; [reflexivity|]. split; [now apply lower_char|now apply lower_rest]. Qed.
Lemma lower_attr n : attr_name n -> attr_name (small_letters n).
Proof.
  intros (c & r & -> & H1 & H2). eexists; eexists. split; [reflexivity|]. split; [|now apply lower_rest].
  destruct H1 as [H1|H1]; [left; now apply lower_char|]. rewrite lower_other; [now right|]. unfold letter. lia.
Qed.

(** adjacent texts of a forest are read as one *)
Definition put (t : tree) (l : list tree) : list tree :=
  match t with
  | Leaf [] => l
  | Leaf s => match l with Leaf s' :: l' => Leaf (s ++ s') :: l' | _ => Leaf s :: l end
  | _ => t :: l
  end.
Fixpoint joined (t : tree) : tree :=
  match t with Leaf s => Leaf s | Tree n a cs => Tree n a (fold_right (fun c l => put (joined c) l) [] cs) end.
Definition join_all (f : list tree) : list tree := fold_right (fun c l => put (joined c) l) [] f.
Lemma esc_app s s' : esc (s ++ s') = esc s ++ esc s'.
Proof. apply flat_map_app. Qed.
Lemma put_markup t l : markup (put t l) = render t ++ markup l.
Proof.
  destruct t as [[|c s]|n a cs]; [reflexivity| |reflexivity]. destruct l as [|[s'|n a cs] l]; try reflexivity.
  cbn [put]. unfold markup. cbn [flat_map render]. now rewrite esc_app, <- app_assoc.
Qed.
Lemma joined_render t : render (joined t) = render t.
Proof.
  induction t as [s|n a cs IH] using tree_ind'; [reflexivity|]. cbn [joined render]. do 2 f_equal.
  change (markup (fold_right (fun c l => put (joined c) l) [] cs) = flat_map render cs).
  induction IH as [|t cs Ht _ IHl]; [reflexivity|]. cbn [fold_right flat_map]. now rewrite put_markup, Ht, IHl.
Qed.
Lemma join_all_markup f : markup (join_all f) = markup f.
Proof.
  unfold join_all. induction f as [|t f IH]; [reflexivity|]. cbn [fold_right]. rewrite put_markup, joined_render, IH. reflexivity.
Qed.

Definition quote_of (v : str) : N := hd 0%N (quoted v).
Definition body_of (v : str) : str := removelast (tl (quoted v)).
Lemma quoted_parts v : quoted v = [quote_of v] ++ body_of v ++ [quote_of v] /\ (quote_of v = 34%N \/ quote_of v = 39%N) /\ ~ In (quote_of v) (body_of v) /\ Reads (body_of v) v.
Proof.
  destruct (C51_attribute v) as (q & body & E & Hq & H1 & _ & H3). rewrite quoteattr_quoted in E.
  unfold quote_of, body_of. rewrite E. cbn [app hd tl]. rewrite removelast_last. auto.
Qed.
Definition attr_piece (kv : str * str) : attr := mkAttr (u " ") (fst kv) (quote_of (snd kv)) (body_of (snd kv)).
Fixpoint tree_pieces (t : tree) : list piece :=
  match t with
  | Leaf s => [PText (esc s)]
  | Tree n a cs => PStart n (map attr_piece a) [] false :: flat_map tree_pieces cs ++ [PEnd n []]
  end.
Definition forest_pieces (f : list tree) : list piece := flat_map tree_pieces f.
Lemma text_app ps ps' : text (ps ++ ps') = text ps ++ text ps'.
Proof. apply flat_map_app. Qed.
Lemma tree_pieces_text t : text (tree_pieces t) = render t.
Proof.
  induction t as [s|n a cs IH] using tree_ind'; [apply app_nil_r|]. cbn [tree_pieces render].
  change (text (PStart n (map attr_piece a) [] false :: flat_map tree_pieces cs ++ [PEnd n []]))
    with (piece_text (PStart n (map attr_piece a) [] false) ++ text (flat_map tree_pieces cs ++ [PEnd n []])).
  rewrite text_app. f_equal.
  - cbn [piece_text]. unfold start_tag. rewrite app_nil_l. do 2 f_equal. f_equal.
    clear. induction a as [|[k v] a IH]; [reflexivity|]. cbn [map flat_map]. rewrite IH. f_equal.
    unfold attr_text, attr_piece. cbn [at_space at_name at_quote at_raw fst snd]. destruct (quoted_parts v) as [E _]. now rewrite <- E.
  - f_equal; [|apply app_nil_r]. induction IH as [|t cs Ht _ IHl]; [reflexivity|]. cbn [flat_map]. now rewrite text_app, Ht, IHl.
Qed.
Lemma forest_pieces_text f : text (forest_pieces f) = markup f.
Proof. unfold forest_pieces. induction f as [|t f IH]; [reflexivity|]. cbn [flat_map]. rewrite text_app, tree_pieces_text, IH. reflexivity. Qed.

(** names that read as they are *)
Definition good_start (n : str) (a : list (str * str)) : Prop :=
  element_name n /\ small_letters n = n /\ n <> u "script" /\ n <> u "style" /\ Forall (fun kv => attr_name (fst kv) /\ small_letters (fst kv) = fst kv) a.
Inductive good : tree -> Prop :=
| good_leaf s : good (Leaf s)
| good_tree n a cs : good_start n a -> Forall good cs -> good (Tree n a cs).
Lemma put_good t l : good t -> Forall good l -> Forall good (put t l).
Proof.
  intros H K. destruct t as [[|c s]|n a cs]; cbn [put]; auto. destruct l as [|[s'|n a cs] l]; auto.
  inversion K; subst. constructor; [constructor|assumption].
Qed.
Lemma good_joined t : good t -> good (joined t).
Proof.
  induction t as [s|n a cs IH] using tree_ind'; intros H; [constructor|]. inversion H as [|? ? ? H1 H2]; subst. cbn [joined]. constructor; [exact H1|].
  clear H H1. induction IH as [|t cs Ht _ IHl]; [constructor|]. inversion H2; subst. cbn [fold_right]. apply put_good; auto.
Qed.

(** texts are apart *)
Inductive apart : list tree -> Prop :=
| apart_nil : apart []
| apart_leaf s l : s <> [] -> match l with Leaf _ :: _ => False | _ => True end -> apart l -> apart (Leaf s :: l)
| apart_tree n a cs l : apart cs -> apart l -> apart (Tree n a cs :: l).
Definition inner (t : tree) : Prop := match t with Leaf _ => True | Tree _ _ cs => apart cs end.
Lemma put_apart t l : inner t -> apart l -> apart (put t l).
Proof.
  intros H K. destruct t as [[|c s]|n a cs]; cbn [put]; [exact K| |constructor; assumption].
  inversion K as [|s' l' H1 H2 H3|n a cs l' H1 H2]; subst.
  - constructor; [discriminate|exact I|constructor].
  - constructor; [discriminate|exact H2|exact H3].
  - constructor; [discriminate|exact I|now constructor].
Qed.
Lemma joined_inner t : inner (joined t).
Proof.
  induction t as [s|n a cs IH] using tree_ind'; [exact I|]. cbn [joined inner].
  induction IH as [|t cs Ht _ IHl]; [constructor|]. cbn [fold_right]. now apply put_apart.
Qed.
Lemma join_all_apart f : apart (join_all f).
Proof. unfold join_all. induction f as [|t f IH]; [constructor|]. cbn [fold_right]. apply put_apart; [apply joined_inner|exact IH]. Qed.

Definition starts_lt (s : str) : Prop := forall c r, s = c :: r -> c = 60%N.
Lemma esc_nonempty s : s <> [] -> esc s <> [].
Proof.
  destruct s as [|c s]; [easy|]. intros _ E. apply app_eq_nil in E as [E _]. unfold esc_char in E.
  destruct (N.eqb c 38); [discriminate|]. destruct (N.eqb c 60); [discriminate|]. destruct (N.eqb c 62); discriminate.
Qed.
Lemma lt_not_letter : starts_lt [] /\ forall s, starts_lt (u "<" ++ s).
Proof. split; [discriminate|]. now intros s c r [= <- _]. Qed.
Lemma forest_starts l ps : match l with Leaf _ :: _ => False | _ => True end -> starts_lt (text ps) -> starts_lt (text (forest_pieces l ++ ps)).
Proof.
  intros H K. destruct l as [|[s|n a cs] l]; [exact K|contradiction|]. intros c r. 
  change (forest_pieces (Tree n a cs :: l)) with ((PStart n (map attr_piece a) [] false :: flat_map tree_pieces cs ++ [PEnd n []]) ++ forest_pieces l).
  cbn [app]. change (text (PStart n (map attr_piece a) [] false :: ?x)) with (piece_text (PStart n (map attr_piece a) [] false) ++ text x).
  cbn [piece_text]. rewrite <- !app_assoc. apply lt_not_letter.
Qed.
Lemma forest_plain l : apart l -> Forall good l -> forall ps, plain_markup ps -> starts_lt (text ps) -> plain_markup (forest_pieces l ++ ps).
Proof.
  induction 1 as [|s l H1 H2 H3 IH|n a cs l H1 IH1 H2 IH2]; intros G ps Hp Hs; [exact Hp| |].
  - inversion G as [|? ? _ G']; subst. unfold forest_pieces. cbn [flat_map tree_pieces app]. fold (forest_pieces l). cbn [plain_markup]. split; [|split].
    + split; [now apply esc_nonempty|]. pose proof (C51_text s) as [_ K]. now rewrite escape_esc in K.
    + now apply forest_starts.
    + now apply IH.
  - inversion G as [|? ? G0 G']; subst. inversion G0 as [|? ? ? (N1 & N2 & N3 & N4 & N5) G1]; subst.
    unfold forest_pieces. cbn [flat_map tree_pieces app]. fold (forest_pieces cs) (forest_pieces l). cbn [plain_markup]. split; [|split; [exact I|]].
    + cbn [piece_ok]. split; [exact N1|]. split; [|split; [constructor|]].
      * rewrite Forall_map. apply (Forall_impl _ (P := fun kv => attr_name (fst kv) /\ small_letters (fst kv) = fst kv)); [|exact N5]. intros [k v] [K1 K2].
        unfold attr_ok, attr_piece. cbn [at_space at_name at_quote at_raw fst snd]. destruct (quoted_parts v) as (_ & Q1 & Q2 & _).
        repeat split; auto; [discriminate|]. constructor; [cbn [In]; auto|constructor].
      * right. now rewrite N2.
    + rewrite <- !app_assoc. apply IH1; [exact G1| |].
      * cbn [app plain_markup]. split; [split; [exact N1|constructor]|]. split; [exact I|]. now apply IH2.
      * cbn [app]. change (text (PEnd n [] :: ?x)) with (piece_text (PEnd n []) ++ text x). intros c r. cbn [piece_text]. change (u "</") with (u "<" ++ [DIV]). rewrite <- !app_assoc. apply lt_not_letter.
Qed.
Lemma forest_events unescape l : (forall s v, Reads s v -> unescape s = v) -> Forall good l -> events_of unescape (forest_pieces l) = flat_map reported l.
Proof.
  intros U. assert (A : forall ps ps', events_of unescape (ps ++ ps') = events_of unescape ps ++ events_of unescape ps') by (intros; apply flat_map_app).
  assert (T : forall t, good t -> events_of unescape (tree_pieces t) = reported t).
  { induction t as [s|n a cs IH] using tree_ind'; intros G.
    - cbn. f_equal. f_equal. apply U. pose proof (C51_text s) as [K _]. now rewrite escape_esc in K.
    - inversion G as [|? ? ? (N1 & N2 & N3 & N4 & N5) G1]; subst. cbn [tree_pieces reported].
      change (events_of unescape (PStart n (map attr_piece a) [] false :: ?x)) with (EStart (small_letters n) (map (read_attr unescape) (map attr_piece a)) :: events_of unescape x).
      rewrite A, N2. f_equal; [f_equal|f_equal].
      + clear -N5 U. rewrite map_map. apply map_ext_Forall. apply (Forall_impl _ (P := fun kv => attr_name (fst kv) /\ small_letters (fst kv) = fst kv)); [|exact N5].
        intros [k v] [_ K]. rewrite read_attr_eq. cbn [attr_piece at_name at_raw fst snd] in *. rewrite K. do 2 f_equal.
        destruct (quoted_parts v) as (_ & _ & _ & R). unfold attr_value. destruct (body_of v) eqn:E; [|now apply U]. now apply (C51_reads_unique [] _ _ Reads_nil).
      + clear -IH G1 A. induction IH as [|t cs Ht _ IHl]; [reflexivity|]. inversion G1; subst. cbn [flat_map]. rewrite A, Ht, IHl by assumption. reflexivity.
      + change (events_of unescape [PEnd n []]) with [EEnd (small_letters n)]. now rewrite N2. }
  induction 1 as [|t l Ht _ IH]; [reflexivity|]. unfold forest_pieces. cbn [flat_map]. rewrite A, T by assumption. fold (forest_pieces l). now rewrite IH.
Qed.
Lemma flow_good (P : str -> list (str * ostr) -> Prop) f : (forall n a, P n (with_values a) -> good_start n a) ->
  (forall n a, In (EStart n a) (flat_map flow f) -> P n a) -> Forall good f.
Proof.
  intros HP. assert (T : forall t, (forall n a, In (EStart n a) (flow t) -> P n a) -> good t).
  { induction t as [s|n a cs IH] using tree_ind'; intros H; [constructor|]. cbn [flow] in H. constructor; [apply HP, H; now left|].
    assert (H' : forall n a, In (EStart n a) (flat_map flow cs) -> P n a) by (intros; apply H; now right). clear H.
    induction IH as [|t cs Ht _ IHl]; [constructor|]. cbn [flat_map] in H'. constructor; [apply Ht; intros; apply H'; apply in_or_app; auto|].
    apply IHl. intros. apply H'. apply in_or_app. auto. }
  induction f as [|t f IH]; intros H; [constructor|]. cbn [flat_map] in H. constructor; [apply T; intros; apply H; apply in_or_app; auto|].
  apply IH. intros. apply H. apply in_or_app. auto.
Qed.
Definition no_script (p : piece) : Prop := match p with PStart n _ _ _ => small_letters n <> u "script" /\ small_letters n <> u "style" | _ => True end.

(** What was repaired is plain mark-up, and repairing it again changes nothing. *)
Theorem C128_again unescape ps out : (forall s v, Reads s v -> unescape s = v) -> plain_markup ps -> Forall no_script ps ->
  fix_events (events_of unescape ps) = Ok out ->
  exists es, html_events unescape out = Some es /\ fix_events es = Ok out.
Proof.
  intros U Hp Hn Ho. destruct (C50_well_nested _ _ Ho) as (f & -> & F). rewrite shown_events in F.
  assert (G : Forall good f).
  { apply (flow_good (fun n a => exists m l, n = small_letters m /\ a = map (read_attr unescape) l /\ element_name m /\ Forall attr_ok l /\ small_letters m <> u "script" /\ small_letters m <> u "style")).
    - intros n a (m & l & -> & Ea & H1 & H2 & H3 & H4). split; [now apply lower_element|]. split; [apply lower_again|]. split; [exact H3|]. split; [exact H4|].
      clear -Ea H2. revert a Ea. induction H2 as [|x l (_ & _ & Hx & _) _ IH]; intros [|[k v] a] Ea; cbn [with_values map] in Ea; try discriminate; constructor.
      + rewrite read_attr_eq in Ea. injection Ea as -> _ _. cbn [fst]. split; [now apply lower_attr|apply lower_again].
      + apply IH. now injection Ea as _ _ Ea.
    - intros n a H. rewrite F in H. apply in_flat_map in H as (p & Hin & H). rewrite Forall_forall in Hn. specialize (Hn p Hin).
      assert (Hok : piece_ok p).
      { clear -Hp Hin. induction ps as [|q ps IH]; [contradiction|]. destruct Hp as (H1 & _ & H2). destruct Hin as [->|Hin]; auto. }
      destruct p as [s| |m l w c|m w|b|b]; cbn [shown] in H; try contradiction; destruct H as [H|[]]; try discriminate. injection H as <- <-.
      destruct Hok as (O1 & O2 & _). destruct Hn as [N1 N2]. exists m, l. auto 8. }
  rewrite <- (join_all_markup f).
  assert (G' : Forall good (join_all f)).
  { clear -G. unfold join_all. induction G as [|t f Ht _ IH]; [constructor|]. cbn [fold_right]. apply put_good; [now apply good_joined|exact IH]. }
  exists (flat_map reported (join_all f)). split; [|apply C51_unchanged].
  apply C128_reads. exists (forest_pieces (join_all f)). split; [|split; [symmetry; apply forest_pieces_text|symmetry; now apply forest_events]].
  rewrite <- (app_nil_r (forest_pieces (join_all f))). apply forest_plain; [apply join_all_apart|exact G'|exact I|discriminate].
Qed.

(** an unescape that reads what is written *)
Fixpoint unesc (f : nat) (s : str) : str :=
  match f with
  | O => s
  | S f' =>
      match s with
      | [] => []
      | c :: s' =>
          match find (fun e => starts_with (fst e) s) entities with
          | Some (e, d) => d :: unesc f' (skipn (length e) s)
          | None => c :: unesc f' s'
          end
      end
  end.
Definition simple_unescape (s : str) : str := unesc (length s) s.
Lemma simple_reads s v : Reads s v -> simple_unescape s = v.
Proof.
  unfold simple_unescape. intros H. generalize (Nat.le_refl (length s)). generalize (length s) at 2 3 as f.
  induction H as [|c s v Hc H IH|e c s v He H IH]; intros f Hf.
  - now destruct f.
  - cbn [length] in Hf. destruct f as [|f]; [lia|]. cbn [unesc]. destruct (find _ entities) as [[e d]|] eqn:E.
    + apply find_some in E as [E1 E2]. cbn [fst] in E2. destruct (entity_amp e d E1) as [e' ->]. apply starts_with_spec in E2 as [r E2]. injection E2 as E2 _. congruence.
    + f_equal. apply IH. lia.
  - destruct (entity_amp e c He) as [e' Ee]. destruct f as [|f]; [subst e; cbn [app length] in Hf; lia|].
    assert (L : length (e ++ s) = S (length e' + length s)) by (subst e; cbn [app length]; now rewrite app_length).
    destruct (e ++ s) as [|c0 s0] eqn:Es; [discriminate|]. cbn [unesc]. destruct (find _ entities) as [[e1 d]|] eqn:E.
    + apply find_some in E as [E1 E2]. cbn [fst] in E2. apply starts_with_spec in E2 as [r E2]. rewrite E2 in Es.
      destruct (entity_prefix e c e1 d s r He E1 Es) as [-> ->]. rewrite E2, skipn_app, skipn_all, Nat.sub_diag. cbn [app skipn]. f_equal. apply IH. lia.
    + apply (find_none _ _ E) in He. cbn [fst] in He. exfalso. rewrite <- Es in He.
      assert (K : starts_with e (e ++ s) = true) by (apply starts_with_spec; eauto). congruence.
Qed.

(** A start tag loses its name if that is not in lower case. *)
Definition camel : list piece := [PStart (u "p") [] [] false; PStart (u "persName") [mkAttr (u " ") (u "type") 39 (u "a &amp; b")] [] false; PText (u "A &lt; B"); PEnd (u "p") []].
Lemma element_name_check n : p_name is_letter n = Some (n, []) -> element_name n.
Proof. intros H. now apply (p_name_spec _ _ _ _ _ is_letter_spec) in H. Qed.
Lemma attr_name_check n : p_name attr_start n = Some (n, []) -> attr_name n.
Proof. intros H. now apply (p_name_spec _ _ _ _ _ attr_start_spec) in H. Qed.
Lemma camel_plain : plain_markup camel.
Proof.
  unfold camel. cbn [plain_markup piece_ok follows]. split; [|split; [exact I|split; [|split; [exact I|split; [|split; [|split; [|split; [exact I|exact I]]]]]]]].
  - split; [now apply element_name_check|]. split; [constructor|]. split; [constructor|]. right. split; discriminate.
  - split; [now apply element_name_check|]. split; [|split; [constructor|right; split; discriminate]]. constructor; [|constructor]. unfold attr_ok. cbn [at_space at_name at_quote at_raw].
    split; [discriminate|]. split; [constructor; [cbn [In]; auto|constructor]|]. split; [|split; [now right|cbn; lia]].
    now apply attr_name_check.
  - split; [discriminate|cbn; lia].
  - now intros c r [= <- _].
  - split; [now apply element_name_check|constructor].
Qed.
Theorem C128_names_refuted : ~ (forall unescape ps out, (forall s v, Reads s v -> unescape s = v) -> plain_markup ps ->
  fix_events (events_of unescape ps) = Ok out ->
  forall n l w c, In (PStart n l w c) ps -> exists x y, out = x ++ u "<" ++ n ++ y).
Proof.
  intros H. destruct (fix_total simple_unescape camel) as [out E].
  destruct (H simple_unescape camel out simple_reads camel_plain E (u "persName") [mkAttr (u " ") (u "type") 39 (u "a &amp; b")] [] false) as (x & y & K); [right; left; reflexivity|].
  vm_compute in E. injection E as <-.
  change (u "<" ++ u "persName" ++ y) with (60 :: 112 :: 101 :: 114 :: 115 :: 78 :: 97 :: 109 :: 101 :: y)%N in K.
  repeat (destruct x as [|? x]; [discriminate|]; cbn [app] in K; injection K as _ K). destruct x; discriminate.
Qed.

Example C128_ex : text camel = u "<p><persName type='a &amp; b'>A &lt; B</p>" /\ plain_markup camel /\ Forall no_script camel /\
  html_events simple_unescape (text camel) = Some (events_of simple_unescape camel) /\
  fix_events (events_of simple_unescape camel) = Ok (markup [Tree (u "p") [] [Tree (u "persname") [(u "type", u "a & b")] [Leaf (u "A < B")]]]) /\
  markup [Tree (u "p") [] [Tree (u "persname") [(u "type", u "a & b")] [Leaf (u "A < B")]]] = u "<p><persname type=""a &amp; b"">A &lt; B</persname></p>" /\
  html_events simple_unescape (u "a < b <!-- c --> <?d?><e />") = Some [EData (u "a "); EData (u "<"); EData (u " b "); EIgnored (u " c "); EData (u " "); EIgnored (u "d?"); EStart (u "e") []; EEnd (u "e")] /\
  html_events simple_unescape (u "<a b>") = None.
Proof.
  split; [reflexivity|]. split; [exact camel_plain|]. split; [|repeat split; reflexivity].
  unfold camel. constructor; [split; discriminate|]. constructor; [split; discriminate|]. repeat constructor.
Qed.

Print Assumptions C128_reads.
Print Assumptions C128_repair.
Print Assumptions C128_again.
Print Assumptions C128_names_refuted.
Print Assumptions C128_ex.
