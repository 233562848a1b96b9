(** C50 and C51: mark-up repair *)
From Verif Require Import Base ModelFixXml.

(* ---------------------------------------------------------------- *)
(** ** Specification *)

(** mark-up trees *)
Inductive tree :=
| Leaf (text : str)
| Tree (name : str) (attrs : list (str * str)) (children : list tree).
Fixpoint tree_ind' (P : tree -> Prop) (H1 : forall s, P (Leaf s))
    (H2 : forall n a cs, Forall P cs -> P (Tree n a cs)) (t : tree) : P t :=
  match t with
  | Leaf s => H1 s
  | Tree n a cs => H2 n a cs ((fix go l : Forall P l :=
      match l with [] => Forall_nil P | x :: l' => Forall_cons x (tree_ind' P H1 H2 x) (go l') end) cs)
  end.

(** escaped texts *)
Definition esc_char (c : N) : str :=
  if N.eqb c 38 then u "&amp;" else if N.eqb c 60 then u "&lt;" else if N.eqb c 62 then u "&gt;" else [c].
Definition esc (s : str) : str := flat_map esc_char s.
Definition esc_attr_char (c : N) : str :=
  if N.eqb c 10 then u "&#10;" else if N.eqb c 13 then u "&#13;" else if N.eqb c 9 then u "&#9;" else esc_char c.
Definition quoted (v : str) : str :=
  if negb (existsb (N.eqb DQ) v) then [DQ] ++ flat_map esc_attr_char v ++ [DQ]
  else if negb (existsb (N.eqb SQ) v) then [SQ] ++ flat_map esc_attr_char v ++ [SQ]
  else [DQ] ++ flat_map (fun c => if N.eqb c DQ then u "&quot;" else esc_attr_char c) v ++ [DQ].

(** the mark-up of a forest: well nested by construction *)
Definition start_tag (n : str) (a : list (str * str)) : str :=
  u "<" ++ n ++ flat_map (fun kv => u " " ++ fst kv ++ u "=" ++ quoted (snd kv)) a ++ u ">".
Definition end_tag (n : str) : str := u "</" ++ n ++ u ">".
Fixpoint render (t : tree) : str :=
  match t with
  | Leaf s => esc s
  | Tree n a cs => start_tag n a ++ flat_map render cs ++ end_tag n
  end.
Definition markup (f : list tree) : str := flat_map render f.

(** texts and start tags of a forest, in document order *)
Definition with_values (a : list (str * str)) : list (str * ostr) := map (fun kv => (fst kv, Some (snd kv))) a.
Fixpoint flow (t : tree) : list event :=
  match t with
  | Leaf s => [EData s]
  | Tree n a cs => EStart n (with_values a) :: flat_map flow cs
  end.
Definition starts_and_texts (es : list event) : list event :=
  filter (fun e => match e with EStart _ _ | EData _ => true | _ => false end) es.
(** what a parser reports for the mark-up of a forest *)
Fixpoint reported (t : tree) : list event :=
  match t with
  | Leaf s => [EData s]
  | Tree n a cs => EStart n (with_values a) :: flat_map reported cs ++ [EEnd n]
  end.

(** reading escaped text *)
Definition entities : list (str * N) :=
  [(u "&amp;", 38%N); (u "&lt;", 60%N); (u "&gt;", 62%N); (u "&quot;", 34%N); (u "&#10;", 10%N); (u "&#13;", 13%N); (u "&#9;", 9%N)].
Inductive Reads : str -> str -> Prop :=
| Reads_nil : Reads [] []
| Reads_char c s v : c <> 38%N -> Reads s v -> Reads (c :: s) (c :: v)
| Reads_entity e c s v : In (e, c) entities -> Reads s v -> Reads (e ++ s) (c :: v).

(* ---------------------------------------------------------------- *)
(** ** Escaping *)
Lemma flat_map_flat_map {A B C} (f : A -> list B) (g : B -> list C) l : flat_map g (flat_map f l) = flat_map (fun x => flat_map g (f x)) l.
Proof. induction l as [|x l IH]; [reflexivity|]. cbn. now rewrite flat_map_app, IH. Qed.
Lemma escape_esc s : escape s = esc s.
Proof.
  unfold escape, replace_char, esc. rewrite !flat_map_flat_map. apply flat_map_ext. intros c. unfold esc_char.
  destruct (N.eqb_spec c 38) as [->|H1]; [reflexivity|]. cbn [flat_map app].
  destruct (N.eqb_spec c 62) as [->|H2]; [reflexivity|]. cbn [flat_map app].
  destruct (N.eqb_spec c 60) as [->|H3]; reflexivity.
Qed.
Lemma quoteattr_body v :
  replace_char 9 (u "&#9;") (replace_char 13 (u "&#13;") (replace_char 10 (u "&#10;") (escape v))) = flat_map esc_attr_char v.
Proof.
  rewrite escape_esc. unfold esc, replace_char. rewrite !flat_map_flat_map. apply flat_map_ext. intros c.
  unfold esc_attr_char, esc_char.
  destruct (N.eqb_spec c 10) as [->|]; [reflexivity|]. destruct (N.eqb_spec c 13) as [->|]; [reflexivity|].
  destruct (N.eqb_spec c 9) as [->|]; [reflexivity|].
  destruct (N.eqb_spec c 38) as [->|]; [reflexivity|]. destruct (N.eqb_spec c 60) as [->|]; [reflexivity|].
  destruct (N.eqb_spec c 62) as [->|]; [reflexivity|]. cbn [flat_map app].
  replace (N.eqb c 10) with false by (symmetry; now apply N.eqb_neq). cbn [flat_map app].
  replace (N.eqb c 13) with false by (symmetry; now apply N.eqb_neq). cbn [flat_map app].
  replace (N.eqb c 9) with false by (symmetry; now apply N.eqb_neq). reflexivity.
Qed.
Lemma esc_attr_other q c : q = DQ \/ q = SQ -> existsb (N.eqb q) (esc_attr_char c) = N.eqb q c.
Proof.
  intros Hq. unfold esc_attr_char, esc_char.
  assert (H : forall r, In r [u "&#10;"; u "&#13;"; u "&#9;"; u "&amp;"; u "&lt;"; u "&gt;"] -> existsb (N.eqb q) r = false).
  { intros r Hr. cbn in Hr. destruct Hq as [->| ->]; repeat (destruct Hr as [<-|Hr]; [reflexivity|]); easy. }
  assert (K : forall d, q <> d -> N.eqb q d = false) by (intros; now apply N.eqb_neq).
  destruct (N.eqb_spec c 10) as [->|]; [rewrite H by (cbn; auto); symmetry; apply K; destruct Hq as [->| ->]; discriminate|].
  destruct (N.eqb_spec c 13) as [->|]; [rewrite H by (cbn; auto); symmetry; apply K; destruct Hq as [->| ->]; discriminate|].
  destruct (N.eqb_spec c 9) as [->|]; [rewrite H by (cbn; auto); symmetry; apply K; destruct Hq as [->| ->]; discriminate|].
  destruct (N.eqb_spec c 38) as [->|]; [rewrite H by (cbn; auto); symmetry; apply K; destruct Hq as [->| ->]; discriminate|].
  destruct (N.eqb_spec c 60) as [->|]; [rewrite H by (cbn; auto 6); symmetry; apply K; destruct Hq as [->| ->]; discriminate|].
  destruct (N.eqb_spec c 62) as [->|]; [rewrite H by (cbn; auto 7); symmetry; apply K; destruct Hq as [->| ->]; discriminate|].
  cbn. apply orb_false_r.
Qed.
Lemma existsb_flat_map {A B} (f : A -> list B) p l : existsb p (flat_map f l) = existsb (fun x => existsb p (f x)) l.
Proof. induction l as [|x l IH]; [reflexivity|]. cbn. now rewrite existsb_app, IH. Qed.
Lemma existsb_ext {A} (f g : A -> bool) l : (forall x, f x = g x) -> existsb f l = existsb g l.
Proof. intros H. induction l as [|x l IH]; [reflexivity|]. cbn. now rewrite H, IH. Qed.
Lemma esc_attr_quotes q v : q = DQ \/ q = SQ -> existsb (N.eqb q) (flat_map esc_attr_char v) = existsb (N.eqb q) v.
Proof. intros Hq. rewrite existsb_flat_map. apply existsb_ext. intros c. now apply esc_attr_other. Qed.
Lemma quoteattr_quoted v : quoteattr v = quoted v.
Proof.
  unfold quoteattr, quoted. rewrite quoteattr_body, !esc_attr_quotes by auto.
  destruct (existsb (N.eqb DQ) v); cbn [negb]; [|reflexivity]. destruct (existsb (N.eqb SQ) v); cbn [negb]; [|reflexivity].
  do 2 f_equal. unfold replace_char. rewrite flat_map_flat_map. apply flat_map_ext. intros c.
  destruct (N.eqb_spec c DQ) as [->|H]; [reflexivity|].
  pose proof (esc_attr_other DQ c (or_introl eq_refl)) as E.
  replace (N.eqb DQ c) with false in E by (symmetry; apply N.eqb_neq; congruence).
  revert E. generalize (esc_attr_char c) as r. induction r as [|x r IH]; [reflexivity|]. cbn [existsb flat_map]. intros E.
  apply orb_false_iff in E as [E1 E2]. rewrite N.eqb_sym, E1. cbn [app]. f_equal. now apply IH.
Qed.

Lemma Reads_app s v s' v' : Reads s v -> Reads s' v' -> Reads (s ++ s') (v ++ v').
Proof.
  induction 1 as [|c s v Hc H IH|e c s v He H IH]; intros H'; [exact H'| |].
  - cbn [app]. constructor; [exact Hc|now apply IH].
  - rewrite <- app_assoc. cbn [app]. apply Reads_entity; [exact He|now apply IH].
Qed.
Lemma Reads_one e c : In (e, c) entities -> Reads e [c].
Proof. intros H. rewrite <- (app_nil_r e). apply Reads_entity; [exact H|constructor]. Qed.
Lemma esc_char_reads c : Reads (esc_char c) [c].
Proof.
  unfold esc_char. destruct (N.eqb_spec c 38) as [->|]; [apply Reads_one; cbn; auto|].
  destruct (N.eqb_spec c 60) as [->|]; [apply Reads_one; cbn; auto|].
  destruct (N.eqb_spec c 62) as [->|]; [apply Reads_one; cbn; auto 6|]. repeat constructor. assumption.
Qed.
Lemma esc_attr_char_reads c : Reads (esc_attr_char c) [c].
Proof.
  unfold esc_attr_char. destruct (N.eqb_spec c 10) as [->|]; [apply Reads_one; cbn; auto 8|].
  destruct (N.eqb_spec c 13) as [->|]; [apply Reads_one; cbn; auto 9|].
  destruct (N.eqb_spec c 9) as [->|]; [apply Reads_one; cbn; auto 10|]. apply esc_char_reads.
Qed.
Lemma reads_flat_map f v : (forall c, Reads (f c) [c]) -> Reads (flat_map f v) v.
Proof.
  intros H. induction v as [|c v IH]; [constructor|]. cbn [flat_map]. change (c :: v) with ([c] ++ v). apply Reads_app; [apply H|exact IH].
Qed.
(** entities can be told apart *)
Lemma entity_prefix e c e' c' s s' : In (e, c) entities -> In (e', c') entities -> e ++ s = e' ++ s' -> c = c' /\ s = s'.
Proof.
  intros H H' E. cbn in H, H'.
  repeat (destruct H as [H|H]; [injection H as <- <-;
    repeat (destruct H' as [H'|H']; [injection H' as <- <-; cbn in E; try discriminate; (split; [reflexivity|]); now repeat (injection E as E)|]); easy|]).
  easy.
Qed.
Lemma entity_amp e c : In (e, c) entities -> exists e', e = 38%N :: e'.
Proof. intros H. cbn in H. repeat (destruct H as [H|H]; [injection H as <- <-; eexists; reflexivity|]). easy. Qed.
Theorem C51_reads_unique s v v' : Reads s v -> Reads s v' -> v = v'.
Proof.
  intros H. revert v'. induction H as [|c s v Hc H IH|e c s v He H IH]; intros v' H'.
  - inversion H' as [| |e c s v He H1 E]; [reflexivity|]. destruct (entity_amp e c He) as [e' ->]. discriminate.
  - inversion H' as [|c' s' w Hc' H1 E1|e c' s' w He H1 E1]; subst.
    + f_equal. now apply IH.
    + destruct (entity_amp e c' He) as [e' ->]. injection E1 as <- _. congruence.
  - inversion H' as [E|c' s' w Hc' H1 E1|e' c' s' w He' H1 E1]; subst.
    + destruct (entity_amp e c He) as [e' ->]. discriminate.
    + destruct (entity_amp e c He) as [e' ->]. injection E1 as -> _. congruence.
    + destruct (entity_prefix e' c' e c s' s He' He E1) as [-> ->]. f_equal. now apply IH.
Qed.

Lemma esc_char_no_lt c : ~ In 60%N (esc_char c).
Proof.
  unfold esc_char. destruct (N.eqb_spec c 38); [cbn; intuition discriminate|]. destruct (N.eqb_spec c 60); [cbn; intuition discriminate|].
  destruct (N.eqb_spec c 62); [cbn; intuition discriminate|]. cbn. intuition congruence.
Qed.
Lemma esc_attr_char_no_lt c : ~ In 60%N (esc_attr_char c).
Proof.
  unfold esc_attr_char. destruct (N.eqb_spec c 10); [cbn; intuition discriminate|]. destruct (N.eqb_spec c 13); [cbn; intuition discriminate|].
  destruct (N.eqb_spec c 9); [cbn; intuition discriminate|]. apply esc_char_no_lt.
Qed.
(** Character data that is written contains no tag and reads as what it was. *)
Theorem C51_text s : Reads (escape s) s /\ ~ In 60%N (escape s).
Proof.
  rewrite escape_esc. split; [apply reads_flat_map, esc_char_reads|]. unfold esc. rewrite in_flat_map.
  intros (c & _ & H). now apply esc_char_no_lt in H.
Qed.
(** An attribute value is written between quotation marks that do not occur in it and
    reads as what it was. *)
Theorem C51_attribute v : exists q body, quoteattr v = [q] ++ body ++ [q] /\ (q = DQ \/ q = SQ) /\
  ~ In q body /\ ~ In 60%N body /\ Reads body v.
Proof.
  rewrite quoteattr_quoted. unfold quoted.
  assert (L : ~ In 60%N (flat_map esc_attr_char v)).
  { rewrite in_flat_map. intros (c & _ & H). now apply esc_attr_char_no_lt in H. }
  assert (Q : forall q, q = DQ \/ q = SQ -> existsb (N.eqb q) v = false -> ~ In q (flat_map esc_attr_char v)).
  { intros q Hq E H. rewrite <- (esc_attr_quotes q v Hq) in E.
    assert (E' : existsb (N.eqb q) (flat_map esc_attr_char v) = true) by (apply existsb_exists; exists q; split; [exact H|apply N.eqb_refl]).
    congruence. }
  destruct (existsb (N.eqb DQ) v) eqn:E1; cbn [negb].
  - destruct (existsb (N.eqb SQ) v) eqn:E2; cbn [negb].
    + exists DQ. eexists. split; [reflexivity|]. split; [auto|]. split; [|split].
      * rewrite in_flat_map. intros (c & Hv & H). destruct (N.eqb_spec c DQ) as [Ec|Hc]; [cbn in H; intuition discriminate|].
        assert (E' : existsb (N.eqb DQ) (esc_attr_char c) = true) by (apply existsb_exists; exists DQ; split; [exact H|reflexivity]).
        rewrite esc_attr_other in E' by auto. apply N.eqb_eq in E'. congruence.
      * rewrite in_flat_map. intros (c & Hv & H). destruct (N.eqb_spec c DQ) as [Ec|Hc]; [cbn in H; intuition discriminate|].
        now apply esc_attr_char_no_lt in H.
      * apply reads_flat_map. intros c. destruct (N.eqb_spec c DQ) as [->|Hc]; [apply Reads_one; cbn; auto 6|apply esc_attr_char_reads].
    + exists SQ. eexists. split; [reflexivity|]. split; [auto|]. split; [now apply Q; auto|]. split; [exact L|].
      apply reads_flat_map, esc_attr_char_reads.
  - exists DQ. eexists. split; [reflexivity|]. split; [auto|]. split; [now apply Q; auto|]. split; [exact L|].
    apply reads_flat_map, esc_attr_char_reads.
Qed.

(* ---------------------------------------------------------------- *)
(** ** Open elements *)
(** an open element: name, attributes and what it contains so far; innermost first, with
    the finished trees at the top *)
Definition frame := (str * list (str * str) * list tree)%type.
Fixpoint open_markup (fs : list frame) (top : list tree) : str :=
  match fs with
  | [] => markup top
  | (n, a, cs) :: fs' => open_markup fs' top ++ start_tag n a ++ markup cs
  end.
Fixpoint open_flow (fs : list frame) (top : list tree) : list event :=
  match fs with
  | [] => flat_map flow top
  | (n, a, cs) :: fs' => open_flow fs' top ++ EStart n (with_values a) :: flat_map flow cs
  end.
Definition add_tree (t : tree) (fs : list frame) (top : list tree) : list frame * list tree :=
  match fs with
  | [] => ([], top ++ [t])
  | (n, a, cs) :: fs' => ((n, a, cs ++ [t]) :: fs', top)
  end.
Lemma add_markup t fs top : open_markup (fst (add_tree t fs top)) (snd (add_tree t fs top)) = open_markup fs top ++ render t.
Proof.
  destruct fs as [|[[n a] cs] fs]; cbn [add_tree fst snd open_markup]; unfold markup; rewrite flat_map_app; cbn [flat_map]; rewrite ?app_nil_r; [reflexivity|].
  now rewrite <- !app_assoc.
Qed.
Lemma add_flow t fs top : open_flow (fst (add_tree t fs top)) (snd (add_tree t fs top)) = open_flow fs top ++ flow t.
Proof.
  destruct fs as [|[[n a] cs] fs]; cbn [add_tree fst snd open_flow]; rewrite flat_map_app; cbn [flat_map]; rewrite ?app_nil_r; [reflexivity|].
  rewrite <- !app_assoc. reflexivity.
Qed.
Definition names (fs : list frame) : list str := map (fun f => fst (fst f)) fs.
Lemma add_names t fs top : names (fst (add_tree t fs top)) = names fs.
Proof. destruct fs as [|[[n a] cs] fs]; reflexivity. Qed.
Lemma close_frame n a cs fs top : let '(fs', top') := add_tree (Tree n a cs) fs top in
  open_markup fs' top' = open_markup ((n, a, cs) :: fs) top ++ end_tag n /\
  open_flow fs' top' = open_flow ((n, a, cs) :: fs) top /\ names fs' = names fs.
Proof.
  pose proof (add_markup (Tree n a cs) fs top) as M. pose proof (add_flow (Tree n a cs) fs top) as F. pose proof (add_names (Tree n a cs) fs top) as K.
  destruct (add_tree (Tree n a cs) fs top) as [fs' top']. cbn [fst snd] in *. split; [|split; [|exact K]].
  - rewrite M. cbn [render open_markup]. unfold markup. now rewrite <- !app_assoc.
  - rewrite F. reflexivity.
Qed.
(** the state of the parser corresponds to open elements *)
Definition Inv (st : fstate) (es : list event) : Prop :=
  exists fs top, fst st = open_markup fs top /\ snd st = names fs /\ open_flow fs top = starts_and_texts es.
Lemma close_current_inv st es : Inv st es -> Inv (close_current st) es.
Proof.
  intros (fs & top & E1 & E2 & E3). unfold close_current. rewrite E2. destruct fs as [|[[n a] cs] fs]; [exists [], top; auto|].
  cbn [names map fst]. pose proof (close_frame n a cs fs top) as C. destruct (add_tree (Tree n a cs) fs top) as [fs' top'].
  destruct C as (C1 & C2 & C3). exists fs', top'. cbn [fst snd]. rewrite C1, C2, E1. auto.
Qed.
Lemma close_until_inv tag s : forall b es, Inv (b, s) es -> Inv (close_until tag b s) es.
Proof.
  induction s as [|t s IH]; intros b es H; [exact H|]. cbn [close_until]. destruct (streq tag t); [exact H|].
  apply IH. exact (close_current_inv _ _ H).
Qed.
Lemma write_attrs_ok a s : write_attrs a = Ok s -> exists kvs, a = with_values kvs /\
  s = flat_map (fun kv => u " " ++ fst kv ++ u "=" ++ quoted (snd kv)) kvs.
Proof.
  revert s. induction a as [|[k [v|]] a IH]; intros s H; cbn [write_attrs] in H; [|
    destruct (write_attrs a) as [r|]; [|discriminate]; cbn [bind] in H; injection H as <- |discriminate].
  - injection H as <-. exists []. auto.
  - destruct (IH r eq_refl) as (kvs & -> & ->). exists ((k, v) :: kvs). split; [reflexivity|]. cbn [flat_map fst snd].
    rewrite quoteattr_quoted, <- !app_assoc. reflexivity.
Qed.
Lemma handle_inv st e st' es : Inv st es -> handle st e = Ok st' -> Inv st' (es ++ [e]).
Proof.
  intros H Hh. unfold Inv, starts_and_texts. rewrite filter_app. fold (starts_and_texts es). cbn [filter].
  destruct e as [t a|t|d|d]; cbn [handle] in Hh.
  - unfold handle_starttag in Hh. destruct (write_attrs a) as [s|] eqn:E; [|discriminate]. cbn [bind] in Hh. injection Hh as <-.
    destruct (write_attrs_ok a s E) as (kvs & -> & ->). destruct H as (fs & top & E1 & E2 & E3).
    exists ((t, kvs, []) :: fs), top. cbn [open_markup open_flow fst snd]. rewrite E1, E2, E3. unfold markup, start_tag. cbn [flat_map].
    rewrite app_nil_r. auto.
  - injection Hh as <-. cbn [filter]. rewrite app_nil_r. change (Inv (handle_endtag st t) es). unfold handle_endtag.
    destruct (snd st) as [|x s] eqn:Es; [exact H|]. rewrite <- Es.
    destruct (streq t x); [now apply close_current_inv|]. destruct (negb _); [now apply close_current_inv|].
    apply close_until_inv. now destruct st.
  - injection Hh as <-. destruct H as (fs & top & E1 & E2 & E3). cbn [fst snd].
    exists (fst (add_tree (Leaf d) fs top)), (snd (add_tree (Leaf d) fs top)).
    rewrite add_markup, add_flow, add_names, E1, E3, escape_esc. auto.
  - injection Hh as <-. cbn [filter]. rewrite app_nil_r. exact H.
Qed.
Lemma handles_inv es : forall st st' done, Inv st done -> foldM handle st es = Ok st' -> Inv st' (done ++ es).
Proof.
  induction es as [|e es IH]; intros st st' done H Hf; cbn [foldM] in Hf.
  - injection Hf as <-. now rewrite app_nil_r.
  - destruct (handle st e) as [st1|] eqn:E; [|discriminate]. cbn [bind] in Hf.
    change (e :: es) with ([e] ++ es). rewrite app_assoc. apply (IH st1); [|exact Hf]. exact (handle_inv st e st1 done H E).
Qed.
Lemma close_all_inv s : forall b es, Inv (b, s) es -> exists f, close_all b s = markup f /\ flat_map flow f = starts_and_texts es.
Proof.
  induction s as [|t s IH]; intros b es H.
  - destruct H as (fs & top & E1 & E2 & E3). destruct fs; [|discriminate]. exists top. auto.
  - cbn [close_all]. apply IH. exact (close_current_inv _ _ H).
Qed.

(* ---------------------------------------------------------------- *)
(** ** Theorems *)

(** The output is well nested: the mark-up of a forest.  Its start tags (with their
    attributes) and texts are those of the input, in order. *)
Theorem C50_well_nested es out : fix_events es = Ok out ->
  exists f, out = markup f /\ flat_map flow f = starts_and_texts es.
Proof.
  unfold fix_events. destruct (foldM handle ([], []) es) as [st|] eqn:E; [|discriminate]. cbn [bind]. intros [= <-].
  apply (close_all_inv (snd st) (fst st) es). destruct st as [b s]. cbn [fst snd].
  apply (handles_inv es ([], []) (b, s) []); [|exact E]. exists [], []. auto.
Qed.
(** It fails exactly for an attribute without a value. *)
Lemma write_attrs_err a : (exists e, write_attrs a = Err e) <-> exists k, In (k, None) a.
Proof.
  induction a as [|[k [v|]] a IH]; cbn [write_attrs].
  - split; [intros [e [=]]|intros [k []]].
  - split.
    + intros [e H]. destruct (write_attrs a) as [r|e']; [discriminate|]. destruct (proj1 IH) as [k' Hk]; [eauto|]. exists k'. now right.
    + intros (k' & [[=]|Hk]). destruct (proj2 IH) as [e ->]; [eauto|]. cbn. eauto.
  - split; [|eauto]. intros _. exists k. now left.
Qed.
Theorem C50_error es : (exists e, fix_events es = Err e) <-> exists t a k, In (EStart t a) es /\ In (k, None) a.
Proof.
  unfold fix_events. generalize (@nil N, @nil str) as st.
  assert (G : forall st, (exists e, foldM handle st es = Err e) <-> exists t a k, In (EStart t a) es /\ In (k, None) a).
  { induction es as [|ev es IH]; intros st; cbn [foldM].
    - split; [intros [e [=]]|intros (t & a & k & [] & _)].
    - assert (D : (exists e, handle st ev = Err e) <-> exists t a k, ev = EStart t a /\ In (k, None) a).
      { destruct ev as [t a|t|d|d]; cbn [handle].
        - unfold handle_starttag. pose proof (write_attrs_err a) as W. split.
          + intros [e H]. destruct (write_attrs a) as [r|e']; [discriminate|]. destruct (proj1 W) as [k Hk]; [eauto|]. eauto 6.
          + intros (t' & a' & k & [= <- <-] & Hk). destruct (proj2 W) as [e ->]; [eauto|]. cbn. eauto.
        - split; [intros [e [=]]|intros (? & ? & ? & [=] & _)].
        - split; [intros [e [=]]|intros (? & ? & ? & [=] & _)].
        - split; [intros [e [=]]|intros (? & ? & ? & [=] & _)]. }
      destruct (handle st ev) as [st1|e1]; cbn [bind].
      + rewrite IH. split.
        * intros (t & a & k & H1 & H2). exists t, a, k. split; [now right|exact H2].
        * intros (t & a & k & [H1|H1] & H2); [|eauto 6]. destruct (proj2 D) as [e [=]]. eauto 6.
      + split; [|eauto]. intros _. destruct (proj1 D) as (t & a & k & -> & H); [eauto|]. exists t, a, k. split; [now left|exact H]. }
  intros st. rewrite <- (G st). destruct (foldM handle st es); cbn [bind]; [|split; eauto].
  split; intros [e' [=]].
Qed.
(** Well nested input is reproduced. *)
Lemma handle_reported t : forall b s, foldM handle (b, s) (reported t) = Ok (b ++ render t, s).
Proof.
  assert (A : forall {X Y} (f : X -> Y -> res X) l1 l2 x, foldM f x (l1 ++ l2) = do y <- foldM f x l1 ;; foldM f y l2).
  { clear. intros X Y f l1 l2. induction l1 as [|a l1 IH]; intros x; [reflexivity|]. cbn. destruct (f x a); [apply IH|reflexivity]. }
  induction t as [x|n a cs IH] using tree_ind'; intros b s.
  - cbn [reported foldM handle bind fst snd render]. now rewrite escape_esc.
  - cbn [reported foldM handle]. unfold handle_starttag.
    assert (W : write_attrs (with_values a) = Ok (flat_map (fun kv => u " " ++ fst kv ++ u "=" ++ quoted (snd kv)) a)).
    { clear. induction a as [|[k v] a IH]; [reflexivity|]. cbn [with_values map write_attrs fst snd].
      change (map (fun kv : str * str => (fst kv, Some (snd kv))) a) with (with_values a). rewrite IH. cbn [bind flat_map fst snd].
      rewrite quoteattr_quoted, <- !app_assoc. reflexivity. }
    rewrite W. cbn [bind fst snd]. rewrite A.
    assert (C : forall cs b s, Forall (fun t => forall b s, foldM handle (b, s) (reported t) = Ok (b ++ render t, s)) cs ->
      foldM handle (b, s) (flat_map reported cs) = Ok (b ++ markup cs, s)).
    { clear -A. intros cs. induction cs as [|c cs IHc]; intros b s H; [cbn; now rewrite app_nil_r|]. inversion H as [|? ? H1 H2]; subst.
      cbn [flat_map]. rewrite A, H1. cbn [bind]. rewrite IHc by exact H2. unfold markup. cbn [flat_map]. now rewrite <- app_assoc. }
    rewrite C by exact IH. cbn [bind foldM handle]. unfold handle_endtag. cbn [fst snd]. rewrite streq_refl. unfold close_current. cbn [fst snd].
    do 2 f_equal. cbn [render]. unfold start_tag, end_tag. fold (markup cs). now rewrite <- !app_assoc.
Qed.
Theorem C51_unchanged f : fix_events (flat_map reported f) = Ok (markup f).
Proof.
  unfold fix_events.
  assert (C : forall b, foldM handle (b, []) (flat_map reported f) = Ok (b ++ markup f, [])).
  { induction f as [|t f IH]; intros b; [cbn; now rewrite app_nil_r|]. cbn [flat_map].
    assert (A : forall {X Y} (g : X -> Y -> res X) l1 l2 x, foldM g x (l1 ++ l2) = do y <- foldM g x l1 ;; foldM g y l2).
    { clear. intros X Y g l1 l2. induction l1 as [|a l1 IH]; intros x; [reflexivity|]. cbn. destruct (g x a); [apply IH|reflexivity]. }
    rewrite A, handle_reported. cbn [bind]. rewrite IH. unfold markup. cbn [flat_map]. now rewrite <- app_assoc. }
  rewrite C. reflexivity.
Qed.
(** A text that is valid already is not touched at all. *)
Theorem C51_valid valid events s : valid s = true -> get_fixed_xml valid events s = Ok s.
Proof. intros H. unfold get_fixed_xml. now rewrite H. Qed.

(** All the text is kept: the texts of the forest are those of the input. *)
Fixpoint tree_text (t : tree) : str := match t with Leaf s => s | Tree _ _ cs => flat_map tree_text cs end.
Definition event_text (e : event) : str := match e with EData s => s | _ => [] end.
Lemma flow_text t : flat_map event_text (flow t) = tree_text t.
Proof.
  induction t as [s|n a cs IH] using tree_ind'; cbn; [apply app_nil_r|]. rewrite flat_map_flat_map.
  induction IH as [|x l Hx _ IHl]; [reflexivity|]. cbn. now rewrite Hx, IHl.
Qed.
Theorem C51_all_text es out : fix_events es = Ok out -> exists f, out = markup f /\ flat_map tree_text f = flat_map event_text es.
Proof.
  intros H. destruct (C50_well_nested es out H) as (f & -> & E). exists f. split; [reflexivity|].
  transitivity (flat_map event_text (flat_map flow f)).
  - rewrite flat_map_flat_map. apply flat_map_ext. intros t. symmetry. apply flow_text.
  - rewrite E. clear. induction es as [|e es IH]; [reflexivity|]. unfold starts_and_texts in *. cbn [filter].
    destruct e; cbn [flat_map event_text]; rewrite ?IH; reflexivity.
Qed.

(** Comments, processing instructions and declarations are lost. *)
Theorem C51_ignored_refuted : exists es s, In (EIgnored s) es /\ s <> [] /\
  fix_events es = fix_events (filter (fun e => match e with EIgnored _ => false | _ => true end) es).
Proof. exists [EStart (u "a") []; EIgnored (u "?pi?"); EEnd (u "a")], (u "?pi?"). repeat split; [cbn; auto|discriminate]. Qed.
(** An end tag that is not that of the innermost element closes the elements inside of
    the named one but not that one itself: the y, after the end tag of b, is still inside
    of b. *)
Theorem C51_end_tag_refuted :
  fix_events [EStart (u "a") []; EStart (u "b") []; EStart (u "c") []; EData (u "x"); EEnd (u "b"); EData (u "y"); EEnd (u "a")] =
    Ok (markup [Tree (u "a") [] [Tree (u "b") [] [Tree (u "c") [] [Leaf (u "x")]; Leaf (u "y")]]]) /\
  markup [Tree (u "a") [] [Tree (u "b") [] [Tree (u "c") [] [Leaf (u "x")]; Leaf (u "y")]]] = u "<a><b><c>x</c>y</b></a>".
Proof. split; reflexivity. Qed.
(** The result need not be a document: a stray end tag can close the root element. *)
Theorem C50_one_root_refuted :
  fix_events [EStart (u "a") []; EEnd (u "p"); EStart (u "b") []; EEnd (u "b"); EEnd (u "a")] = Ok (u "<a></a><b></b>").
Proof. reflexivity. Qed.

Example C50_ex : fix_events [EStart (u "tei") []; EStart (u "text") [(u "n", Some (u "1 & 2"))]; EStart (u "figure") []; EData (u "a > b"); EEnd (u "p"); EEnd (u "text")] =
  Ok (u "<tei><text n=" ++ [DQ] ++ u "1 &amp; 2" ++ [DQ] ++ u "><figure>a &gt; b</figure></text></tei>").
Proof. reflexivity. Qed.
Example C50_ex_error : fix_events [EStart (u "a") [(u "b", None)]] = Err AttributeError.
Proof. reflexivity. Qed.
Example C51_ex : quoteattr ([DQ] ++ u "<a" ++ [SQ; 10%N]) = [DQ] ++ u "&quot;&lt;a" ++ [SQ] ++ u "&#10;" ++ [DQ].
Proof. reflexivity. Qed.

Print Assumptions C50_well_nested.
Print Assumptions C50_error.
Print Assumptions C50_one_root_refuted.
Print Assumptions C51_text.
Print Assumptions C51_attribute.
Print Assumptions C51_reads_unique.
Print Assumptions C51_unchanged.
Print Assumptions C51_valid.
Print Assumptions C51_all_text.
Print Assumptions C51_ignored_refuted.
Print Assumptions C51_end_tag_refuted.
