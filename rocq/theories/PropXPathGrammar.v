(** C123: an XPath expression is read exactly if, and as, the grammar of its subset of XPath 1.0 says. *)
From Verif Require Import Base ModelXml ModelExtend ModelTarget ModelTargets ModelXPath PropXPath.
Require Import Lia.
Import ListNotations.
Open Scope list_scope.
Open Scope nat_scope.

(* ---------------------------------------------------------------- *)
(** ** Specification *)
Definition letter (c : N) : Prop := (65 <= c <= 90 \/ 97 <= c <= 122 \/ c = 95 \/ 128 <= c)%N.
Definition name_char (c : N) : Prop := (letter c \/ 48 <= c <= 57 \/ c = 45 \/ c = 46)%N.
Definition blank (c : N) : Prop := In c [32; 9; 10; 13]%N.
Definition is_name (n : str) : Prop := exists c r, n = c :: r /\ letter c /\ Forall name_char r.
Definition not_before (P : N -> Prop) (s : str) : Prop := forall c r, s = c :: r -> ~ P c.
Definition symbols : list (string * xtok) :=
  [("//", XSlashes); ("|", XBar); ("(", XLpar); (")", XRpar); ("[", XLbr); ("]", XRbr); (".", XDot); ("@", XAt); ("=", XEq); ("*", XStar); ("::", XColons)]%string.
(** the words of an expression: names and slashes are as long as possible *)
Inductive words : str -> list xtok -> Prop :=
| w_none : words [] []
| w_blank c s ts : blank c -> words s ts -> words (c :: s) ts
| w_name n s ts : is_name n -> not_before name_char s -> words s ts -> words (n ++ s) (XName n :: ts)
| w_text q v s ts : In q [34; 39]%N -> ~ In q v -> words s ts -> words (q :: v ++ q :: s) (XLit v :: ts)
| w_slash s ts : not_before (fun c => c = 47%N) s -> words s ts -> words (u "/" ++ s) (XSlash :: ts)
| w_symbol y t s ts : In (y, t) symbols -> words s ts -> words (u y ++ s) (t :: ts).

Definition axes : list (string * xaxis) := [("child", AChild); ("self", ASelf); ("ancestor", AAncestor)]%string.
(** NodeTest, with or without an axis *)
Inductive g_node : list xtok -> xaxis -> xtest -> Prop :=
| g_named n : g_node [XName n] AChild (TName n)
| g_any : g_node [XStar] AChild TElement
| g_axis_named x a n : In (x, a) axes -> g_node [XName (u x); XColons; XName n] a (TName n)
| g_axis_any x a : In (x, a) axes -> g_node [XName (u x); XColons; XStar] a TElement.
Inductive g_or : list xtok -> xpred -> Prop :=
| g_and_or ts p : g_and ts p -> g_or ts p
| g_or_or ts ts' p q : g_and ts p -> g_or ts' q -> g_or (ts ++ XName (u "or") :: ts') (POr p q)
with g_and : list xtok -> xpred -> Prop :=
| g_atom_and ts p : g_atom ts p -> g_and ts p
| g_and_and ts ts' p q : g_atom ts p -> g_and ts' q -> g_and (ts ++ XName (u "and") :: ts') (PAnd p q)
with g_atom : list xtok -> xpred -> Prop :=
| g_attr n : g_atom [XAt; XName n] (PAttr n)
| g_attr_is n v : g_atom [XAt; XName n; XEq; XLit v] (PAttrIs n v)
| g_not ts p : g_or ts p -> g_atom (XName (u "not") :: XLpar :: ts ++ [XRpar]) (PNot p)
| g_pred_par ts p : g_or ts p -> g_atom (XLpar :: ts ++ [XRpar]) p
| g_has ts a t : g_node ts a t -> g_atom ts (PHas a t).
Inductive g_preds : list xtok -> list xpred -> Prop :=
| g_no_preds : g_preds [] []
| g_pred ts ts' p ps : g_or ts p -> g_preds ts' ps -> g_preds (XLbr :: ts ++ XRbr :: ts') (p :: ps).
Inductive g_step : list xtok -> xstep -> Prop :=
| g_dot : g_step [XDot] (mkStep ASelf TNode [])
| g_test ts ts' a t ps : g_node ts a t -> g_preds ts' ps -> g_step (ts ++ ts') (mkStep a t ps).
Inductive g_steps : list xtok -> list xstep -> Prop :=
| g_last ts s : g_step ts s -> g_steps ts [s]
| g_slash ts ts' s ss : g_step ts s -> g_steps ts' ss -> g_steps (ts ++ XSlash :: ts') (s :: ss)
| g_slashes ts ts' s ss : g_step ts s -> g_steps ts' ss -> g_steps (ts ++ XSlashes :: ts') (s :: slashes :: ss).
Inductive g_union : list xtok -> xexpr -> Prop :=
| g_one ts e : g_path ts e -> g_union ts e
| g_more ts ts' e f : g_path ts e -> g_union ts' f -> g_union (ts ++ XBar :: ts') (EUnion e f)
with g_path : list xtok -> xexpr -> Prop :=
| g_relative ts ss : g_steps ts ss -> g_path ts (ELoc false ss)
| g_absolute ts ss : g_steps ts ss -> g_path (XSlash :: ts) (ELoc true ss)
| g_anywhere ts ss : g_steps ts ss -> g_path (XSlashes :: ts) (ELoc true (slashes :: ss))
| g_par ts e : g_union ts e -> g_path (XLpar :: ts ++ [XRpar]) e
| g_from ts ts' e ss : g_union ts e -> g_steps ts' ss -> g_path (XLpar :: ts ++ XRpar :: XSlash :: ts') (EFrom e ss)
| g_from_below ts ts' e ss : g_union ts e -> g_steps ts' ss -> g_path (XLpar :: ts ++ XRpar :: XSlashes :: ts') (EFrom e (slashes :: ss)).

(* ---------------------------------------------------------------- *)
(** ** Words *)
Lemma letter_spec c : is_letter c = true <-> letter c.
Proof. unfold is_letter, letter. rewrite !orb_true_iff, !andb_true_iff, !N.leb_le, N.eqb_eq. tauto. Qed.
Lemma name_char_spec c : is_name_char c = true <-> name_char c.
Proof. unfold is_name_char, name_char. rewrite !orb_true_iff, !andb_true_iff, !N.leb_le, !N.eqb_eq, letter_spec. tauto. Qed.
Lemma blank_spec c : is_xspace c = true <-> blank c.
Proof. unfold is_xspace, blank. cbn [In]. rewrite !orb_true_iff, !N.eqb_eq. intuition. Qed.
Lemma after_start t c s : match after t (lex_start c) with Some (ts, st) => option_map (app ts) (lex st s) | None => None end = option_map (cons t) (lex LStart (c :: s)).
Proof. cbn [lex lex_step]. unfold after. destruct (lex_start c) as [[ts st]|]; [|reflexivity]. cbn [option_map fst snd]. now destruct (lex st s). Qed.
Lemma lex_name n : forall acc s, Forall name_char n -> not_before name_char s -> lex (LName acc) (n ++ s) = option_map (cons (XName (rev acc ++ n))) (lex LStart s).
Proof.
  induction n as [|c n IH]; intros acc s Hn Hs.
  - rewrite app_nil_r. destruct s as [|c s]; [reflexivity|]. cbn [app]. cbn [lex]. cbn [lex_step]. destruct (is_name_char c) eqn:E; [exfalso; apply (Hs c s eq_refl); now apply name_char_spec|]. apply after_start.
  - inversion Hn as [|? ? Hc Hn']; subst. cbn [app lex lex_step]. rewrite (proj2 (name_char_spec c) Hc), (IH _ _ Hn' Hs). cbn [rev]. rewrite <- app_assoc. cbn [app]. now destruct (lex LStart s).
Qed.
Lemma lex_text q v : forall acc s, ~ In q v -> lex (LText q acc) (v ++ q :: s) = option_map (cons (XLit (rev acc ++ v))) (lex LStart s).
Proof.
  induction v as [|c v IH]; intros acc s Hv; cbn [app lex lex_step].
  - now rewrite N.eqb_refl, app_nil_r.
  - destruct (N.eqb_spec c q) as [->|Hc]; [exfalso; apply Hv; now left|]. rewrite IH by (intros H; apply Hv; now right). cbn [rev]. rewrite <- app_assoc. cbn [app]. now destruct (lex LStart s).
Qed.
Lemma lex_slash s : not_before (fun c => c = 47%N) s -> lex LSlash s = option_map (cons XSlash) (lex LStart s).
Proof.
  intros Hs. destruct s as [|c s]; [reflexivity|]. cbn [lex]. cbn [lex_step]. destruct (N.eqb_spec c 47) as [->|Hc]; [now destruct (Hs 47%N s eq_refl)|]. apply after_start.
Qed.
Lemma start_letter c : letter c -> lex_start c = Some ([], LName [c]).
Proof.
  intros H. unfold lex_start. assert (is_xspace c = false) as ->. { apply not_true_is_false. intros E. apply blank_spec in E. unfold blank, letter in *. cbn [In] in E. lia. }
  now rewrite (proj2 (letter_spec c) H).
Qed.
Theorem words_lexed s ts : words s ts -> lex LStart s = Some ts.
Proof.
  induction 1 as [|c s ts Hc _ IH|n s ts (c & r & -> & Hc & Hr) Hs _ IH|q v s ts Hq Hv _ IH|s ts Hs _ IH|y t s ts Hy _ IH].
  - reflexivity.
  - cbn [lex lex_step]. unfold lex_start. rewrite (proj2 (blank_spec c) Hc), IH. reflexivity.
  - cbn [app lex lex_step]. rewrite (start_letter c Hc), (lex_name r [c] s Hr Hs), IH. reflexivity.
  - cbn [lex lex_step]. assert (lex_start q = Some ([], LText q [])) as -> by (destruct Hq as [<- | [<- | []]]; reflexivity). rewrite (lex_text q v [] s Hv), IH. reflexivity.
  - change (u "/" ++ s) with (47%N :: s). cbn [lex lex_step]. change (lex_start 47) with (Some (@nil xtok, LSlash)). cbv iota. now rewrite (lex_slash s Hs), IH.
  - cbn [symbols In] in Hy. repeat (destruct Hy as [Hy|Hy]; [injection Hy as <- <-; match goal with |- _ = Some (?t :: _) => first [change (option_map (app [t]) (lex LStart s) = Some (t :: ts)) | change (option_map (app []) (option_map (app [t]) (lex LStart s)) = Some (t :: ts))] end; rewrite IH; reflexivity|]). destruct Hy.
Qed.
Lemma name_split s : exists n r, s = n ++ r /\ Forall name_char n /\ not_before name_char r.
Proof.
  induction s as [|c s (n & r & -> & Hn & Hr)]; [exists [], []; repeat split; [constructor|intros c r E; discriminate]|].
  destruct (is_name_char c) eqn:E.
  - exists (c :: n), r. repeat split; [constructor; [now apply name_char_spec|exact Hn]|exact Hr].
  - exists [], (c :: n ++ r). repeat split; [constructor|]. intros d x Hd Hc. injection Hd as <- _. apply name_char_spec in Hc. congruence.
Qed.
Lemma text_split (q : N) (s : str) : (exists v r, s = v ++ q :: r /\ ~ In q v) \/ ~ In q s.
Proof.
  induction s as [|c s IH]; [now right|]. destruct (N.eq_dec c q) as [->|Hc]; [left; now exists [], s|].
  destruct IH as [(v & r & -> & Hv)|H]; [left; exists (c :: v), r; split; [reflexivity|intros [E|E]; [now apply Hc|now apply Hv]]|right; intros [E|E]; [now apply Hc|now apply H]].
Qed.
Lemma lex_open (q : N) (s : str) : forall acc, ~ In q s -> lex (LText q acc) s = None.
Proof.
  induction s as [|c s IH]; intros acc H; [reflexivity|]. cbn [lex lex_step]. destruct (N.eqb_spec c q) as [->|Hc]; [exfalso; apply H; now left|]. rewrite IH by (intros E; apply H; now right). reflexivity.
Qed.
Theorem lexed_words : forall s ts, lex LStart s = Some ts -> words s ts.
Proof.
  intros s. remember (length s) as k eqn:Hk. revert s Hk. induction k as [k IH] using lt_wf_ind. intros s -> ts H. destruct s as [|c s]; [injection H as <-; constructor|].
  assert (step : forall s' ts', length s' <= length s -> lex LStart s' = Some ts' -> words s' ts') by (intros s' ts' L E; refine (IH (length s') _ s' eq_refl ts' E); cbn [length]; lia).
  assert (sym : forall y t, In (y, t) symbols -> u y = [c] -> option_map (app [t]) (lex LStart s) = Some ts -> words (c :: s) ts).
  { intros y t Hy Ec E. destruct (lex LStart s) as [ts'|] eqn:Es; [|discriminate]. injection E as <-. change (c :: s) with ([c] ++ s). rewrite <- Ec. apply w_symbol; [exact Hy|now apply step]. }
  cbn [lex lex_step] in H. unfold lex_start in H.
  destruct (is_xspace c) eqn:Eb. { apply blank_spec in Eb. apply w_blank; [exact Eb|]. apply step; [lia|]. now destruct (lex LStart s). }
  destruct (is_letter c) eqn:El.
  { destruct (name_split s) as (n & r & -> & Hn & Hr). rewrite (lex_name n [c] r Hn Hr) in H. destruct (lex LStart r) as [ts'|] eqn:Er; [|discriminate]. injection H as <-.
    change (c :: n ++ r) with ((c :: n) ++ r). apply (w_name (c :: n)); [exists c, n; split; [reflexivity|split; [now apply letter_spec|exact Hn]]|exact Hr|]. apply step; [rewrite app_length; lia|exact Er]. }
  destruct (N.eqb_spec c 47) as [->|_].
  { destruct s as [|d s'].
    - injection H as <-. change [47%N] with (u "/" ++ []). apply w_slash; [intros x r E; discriminate|constructor].
    - destruct (N.eq_dec d 47) as [->|Hd].
      + change (lex LSlash (47%N :: s')) with (option_map (app [XSlashes]) (lex LStart s')) in H. destruct (lex LStart s') as [ts'|] eqn:Es; [|discriminate]. injection H as <-.
        change (47%N :: 47%N :: s') with (u "//" ++ s'). apply w_symbol; [now left|]. apply step; [cbn [length]; lia|exact Es].
      + assert (Hs : not_before (fun c => c = 47%N) (d :: s')) by (intros x r E; now injection E as -> _). rewrite (lex_slash _ Hs) in H. destruct (lex LStart (d :: s')) as [ts'|] eqn:Es; [|discriminate]. injection H as <-.
        change (47%N :: d :: s') with (u "/" ++ d :: s'). apply w_slash; [exact Hs|]. now apply step. }
  destruct (N.eqb_spec c 58) as [->|_].
  { destruct s as [|d s']; [discriminate|]. cbn [lex lex_step] in H. destruct (N.eqb_spec d 58) as [->|Hd]; [|discriminate]. destruct (lex LStart s') as [ts'|] eqn:Es; [|discriminate]. injection H as <-.
    change (58%N :: 58%N :: s') with (u "::" ++ s'). apply w_symbol; [unfold symbols; cbn [In]; tauto|]. apply step; [cbn [length]; lia|exact Es]. }
  destruct (N.eqb c 34 || N.eqb c 39) eqn:Eq.
  { destruct (text_split c s) as [(v & r & -> & Hv)|Hn]; [|now rewrite (lex_open c s [] Hn) in H]. rewrite (lex_text c v [] r Hv) in H. destruct (lex LStart r) as [ts'|] eqn:Er; [|discriminate]. injection H as <-. cbn [rev app].
    apply w_text; [|exact Hv|]; [apply orb_true_iff in Eq as [E|E]; apply N.eqb_eq in E; subst; cbn [In]; tauto|]. apply step; [rewrite app_length; cbn [length]; lia|exact Er]. }
  repeat match type of H with match (if N.eqb c ?k then Some ([?t], LStart) else _) with _ => _ end = _ =>
    destruct (N.eqb_spec c k) as [->|_]; [match t with
      | XBar => apply (sym "|"%string XBar) | XLpar => apply (sym "("%string XLpar) | XRpar => apply (sym ")"%string XRpar) | XLbr => apply (sym "["%string XLbr) | XRbr => apply (sym "]"%string XRbr)
      | XDot => apply (sym "."%string XDot) | XAt => apply (sym "@"%string XAt) | XEq => apply (sym "="%string XEq) | XStar => apply (sym "*"%string XStar) end;
      [unfold symbols; cbn [In]; tauto|reflexivity|exact H]|] end.
  discriminate.
Qed.

(* ---------------------------------------------------------------- *)
(** ** What is read is in the grammar *)
Lemma axis_spec n a : axis_named n = Some a <-> exists x, n = u x /\ In (x, a) axes.
Proof.
  unfold axis_named, axes. split.
  - destruct (streq n (u "child")) eqn:E1; [apply streq_true in E1; intros H; injection H as <-; exists "child"%string; split; [exact E1|now left]|].
    destruct (streq n (u "self")) eqn:E2; [apply streq_true in E2; intros H; injection H as <-; exists "self"%string; split; [exact E2|right; now left]|].
    destruct (streq n (u "ancestor")) eqn:E3; [apply streq_true in E3; intros H; injection H as <-; exists "ancestor"%string; split; [exact E3|right; right; now left]|discriminate].
  - intros (x & -> & [E|[E|[E|[]]]]); injection E as <- <-; reflexivity.
Qed.
Lemma node_read ts a t r : p_node ts = Some (a, t, r) -> exists ts0, ts = ts0 ++ r /\ g_node ts0 a t.
Proof.
  unfold p_node. intros H. destruct ts as [|[n| | | | | | | | | | | | |] ts]; try discriminate.
  - assert (D : Some (AChild, TName n, ts) = Some (a, t, r) -> exists ts0, XName n :: ts = ts0 ++ r /\ g_node ts0 a t) by (intros X; injection X as <- <- <-; exists [XName n]; split; [reflexivity|apply g_named]).
    destruct ts as [|[] ts]; try discriminate; try (now apply D). destruct ts as [|[m| | | | | | | | | | | | |] ts]; try discriminate; (destruct (axis_named n) as [x|] eqn:E; [|discriminate]); injection H as <- <- <-; apply axis_spec in E as (y & -> & E).
    + exists [XName (u y); XColons; XName m]. split; [reflexivity|now apply g_axis_named].
    + exists [XName (u y); XColons; XStar]. split; [reflexivity|now apply g_axis_any].
  - injection H as <- <- <-. exists [XStar]. split; [reflexivity|apply g_any].
Qed.
Lemma preds_read f : (forall ts p r, p_or f ts = Some (p, r) -> exists ts0, ts = ts0 ++ r /\ g_or ts0 p) /\
  (forall ts p r, p_and f ts = Some (p, r) -> exists ts0, ts = ts0 ++ r /\ g_and ts0 p) /\
  (forall ts p r, p_atom f ts = Some (p, r) -> exists ts0, ts = ts0 ++ r /\ g_atom ts0 p).
Proof.
  induction f as [|f (IHo & IHa & IHt)]; [repeat split; intros; discriminate|]. repeat split; intros ts p r H.
  - cbn [p_or] in H. destruct (p_and f ts) as [[p1 r1]|] eqn:E; [|discriminate]. apply IHa in E as (t1 & -> & G1).
    assert (Hl : Some (p1, r1) = Some (p, r) -> exists ts0, t1 ++ r1 = ts0 ++ r /\ g_or ts0 p) by (intros X; injection X as <- <-; exists t1; split; [reflexivity|now apply g_and_or]).
    destruct r1 as [|[o| | | | | | | | | | | | |] r1]; try (now apply Hl). destruct (streq o (u "or")) eqn:Eo; [|discriminate]. apply streq_true in Eo. subst o.
    destruct (p_or f r1) as [[p2 r2]|] eqn:E2; [|discriminate]. injection H as <- <-. apply IHo in E2 as (t2 & -> & G2). cbn [fst snd]. exists (t1 ++ XName (u "or") :: t2). split; [now rewrite <- app_assoc|now apply g_or_or].
  - cbn [p_and] in H. destruct (p_atom f ts) as [[p1 r1]|] eqn:E; [|discriminate]. apply IHt in E as (t1 & -> & G1).
    assert (Hl : Some (p1, r1) = Some (p, r) -> exists ts0, t1 ++ r1 = ts0 ++ r /\ g_and ts0 p) by (intros X; injection X as <- <-; exists t1; split; [reflexivity|now apply g_atom_and]).
    destruct r1 as [|[o| | | | | | | | | | | | |] r1]; try (now apply Hl). destruct (streq o (u "and")) eqn:Eo; [|now apply Hl]. apply streq_true in Eo. subst o.
    destruct (p_and f r1) as [[p2 r2]|] eqn:E2; [|discriminate]. injection H as <- <-. apply IHa in E2 as (t2 & -> & G2). cbn [fst snd]. exists (t1 ++ XName (u "and") :: t2). split; [now rewrite <- app_assoc|now apply g_and_and].
  - assert (Hnode : option_map (fun x => (PHas (fst (fst x)) (snd (fst x)), snd x)) (p_node ts) = Some (p, r) -> exists ts0, ts = ts0 ++ r /\ g_atom ts0 p).
    { intros X. destruct (p_node ts) as [[[a t] r']|] eqn:E; [|discriminate]. injection X as <- <-. apply node_read in E as (t0 & -> & G). exists t0. split; [reflexivity|]. now apply g_has. }
    assert (Hpar : forall r0 q r', (match p_or f r0 with Some (p, XRpar :: r') => Some (p, r') | _ => None end) = Some (q, r') -> exists t0, r0 = (t0 ++ [XRpar]) ++ r' /\ g_or t0 q).
    { intros r0 q r' X. destruct (p_or f r0) as [[p1 [|[] r1]]|] eqn:E; try discriminate. injection X as <- <-. apply IHo in E as (t0 & -> & G). exists t0. split; [now rewrite <- app_assoc|exact G]. }
    cbn [p_atom] in H. destruct ts as [|[n| | | | | | | | | | | | |] ts]; try (now apply Hnode).
    + destruct ts as [|[] ts]; try (now apply Hnode). destruct (streq n (u "not")) eqn:En; [|discriminate]. apply streq_true in En. subst n.
      destruct (p_or f ts) as [[p1 [|[] r1]]|] eqn:E; try discriminate. injection H as <- <-. apply IHo in E as (t0 & -> & G). exists (XName (u "not") :: XLpar :: t0 ++ [XRpar]). split; [cbn [app]; now rewrite <- app_assoc|now apply g_not].
    + apply Hpar in H as (t0 & -> & G). exists (XLpar :: t0 ++ [XRpar]). split; [reflexivity|now apply g_pred_par].
    + destruct ts as [|[n| | | | | | | | | | | | |] ts]; try (now apply Hnode).
      assert (Ha : Some (PAttr n, ts) = Some (p, r) -> exists ts0, XAt :: XName n :: ts = ts0 ++ r /\ g_atom ts0 p) by (intros X; injection X as <- <-; exists [XAt; XName n]; split; [reflexivity|apply g_attr]).
      destruct ts as [|[] ts]; try (now apply Ha). destruct ts as [|[] ts]; try (now apply Ha). injection H as <- <-. eexists [XAt; XName n; XEq; XLit _]. split; [reflexivity|apply g_attr_is].
Qed.
Lemma pred_list_read f : forall ts ps r, p_preds f ts = Some (ps, r) -> exists ts0, ts = ts0 ++ r /\ g_preds ts0 ps.
Proof.
  induction f as [|f IH]; intros ts ps r H; cbn [p_preds] in H.
  - exists []. destruct ts as [|[] ts]; try discriminate; injection H as <- <-; split; try reflexivity; constructor.
  - assert (Hn : Some ([], ts) = Some (ps, r) -> exists ts0, ts = ts0 ++ r /\ g_preds ts0 ps) by (intros X; injection X as <- <-; exists []; split; [reflexivity|constructor]).
    destruct ts as [|[] ts]; try (now apply Hn). destruct (p_or f ts) as [[p [|[] r1]]|] eqn:E; try discriminate. apply preds_read in E as (t1 & -> & G1). destruct (p_preds f r1) as [[ps2 r2]|] eqn:E2; [|discriminate]. injection H as <- <-. apply IH in E2 as (t2 & -> & G2).
    exists (XLbr :: t1 ++ XRbr :: t2). cbn [fst snd app]. split; [now rewrite <- app_assoc|now apply g_pred].
Qed.
Lemma step_read f ts s r : p_step f ts = Some (s, r) -> exists ts0, ts = ts0 ++ r /\ g_step ts0 s.
Proof.
  unfold p_step. intros H.
  assert (Hn : match p_node ts with Some (a, t, r) => option_map (fun x => (mkStep a t (fst x), snd x)) (p_preds f r) | None => None end = Some (s, r) -> exists ts0, ts = ts0 ++ r /\ g_step ts0 s).
  { intros X. destruct (p_node ts) as [[[a t] r1]|] eqn:E; [|discriminate]. apply node_read in E as (t1 & -> & G1). destruct (p_preds f r1) as [[ps r2]|] eqn:E2; [|discriminate]. injection X as <- <-. apply pred_list_read in E2 as (t2 & -> & G2). exists (t1 ++ t2). split; [now rewrite <- app_assoc|now apply g_test]. }
  destruct ts as [|[] ts]; try (now apply Hn). injection H as <- <-. exists [XDot]. split; [reflexivity|constructor].
Qed.
Lemma steps_read f : forall ts ss r, p_steps f ts = Some (ss, r) -> exists ts0, ts = ts0 ++ r /\ g_steps ts0 ss.
Proof.
  induction f as [|f IH]; intros ts ss r H; [discriminate|]. cbn [p_steps] in H. destruct (p_step f ts) as [[s r1]|] eqn:E; [|discriminate]. apply step_read in E as (t1 & -> & G1).
  assert (Hl : Some ([s], r1) = Some (ss, r) -> exists ts0, t1 ++ r1 = ts0 ++ r /\ g_steps ts0 ss) by (intros X; injection X as <- <-; exists t1; split; [reflexivity|now apply g_last]).
  destruct r1 as [|[] r1]; try (now apply Hl); (destruct (p_steps f r1) as [[ss2 r2]|] eqn:E2; [|discriminate]); injection H as <- <-; apply IH in E2 as (t2 & -> & G2); cbn [fst snd].
  - exists (t1 ++ XSlash :: t2). split; [now rewrite <- app_assoc|now apply g_slash].
  - exists (t1 ++ XSlashes :: t2). split; [now rewrite <- app_assoc|now apply g_slashes].
Qed.
Lemma union_read f : (forall ts e r, p_union f ts = Some (e, r) -> exists ts0, ts = ts0 ++ r /\ g_union ts0 e) /\ (forall ts e r, p_path f ts = Some (e, r) -> exists ts0, ts = ts0 ++ r /\ g_path ts0 e).
Proof.
  induction f as [|f (IHu & IHp)]; [split; intros; discriminate|]. split; intros ts e r H.
  - cbn [p_union] in H. destruct (p_path f ts) as [[e1 r1]|] eqn:E; [|discriminate]. apply IHp in E as (t1 & -> & G1).
    assert (Hl : Some (e1, r1) = Some (e, r) -> exists ts0, t1 ++ r1 = ts0 ++ r /\ g_union ts0 e) by (intros X; injection X as <- <-; exists t1; split; [reflexivity|now apply g_one]).
    destruct r1 as [|[] r1]; try (now apply Hl). destruct (p_union f r1) as [[e2 r2]|] eqn:E2; [|discriminate]. injection H as <- <-. apply IHu in E2 as (t2 & -> & G2). exists (t1 ++ XBar :: t2). split; [now rewrite <- app_assoc|now apply g_more].
  - cbn [p_path] in H.
    assert (Hs : forall g ts0, with_steps g (p_steps f ts0) = Some (e, r) -> exists t1 ss, ts0 = t1 ++ r /\ g_steps t1 ss /\ e = g ss).
    { intros g ts0 X. unfold with_steps in X. destruct (p_steps f ts0) as [[ss r1]|] eqn:E; [|discriminate]. injection X as <- <-. apply steps_read in E as (t1 & -> & G). now exists t1, ss. }
    assert (Hr : with_steps (ELoc false) (p_steps f ts) = Some (e, r) -> exists ts0, ts = ts0 ++ r /\ g_path ts0 e) by (intros X; apply Hs in X as (t1 & ss & -> & G & ->); exists t1; split; [reflexivity|now apply g_relative]).
    destruct ts as [|[] ts]; try (now apply Hr).
    + apply Hs in H as (t1 & ss & -> & G & ->). exists (XSlash :: t1). split; [reflexivity|now apply g_absolute].
    + apply Hs in H as (t1 & ss & -> & G & ->). exists (XSlashes :: t1). split; [reflexivity|now apply g_anywhere].
    + destruct (p_union f ts) as [[e1 [|[] r1]]|] eqn:E; try discriminate. apply IHu in E as (t1 & -> & G1).
      assert (Hl : Some (e1, r1) = Some (e, r) -> exists ts0, XLpar :: t1 ++ XRpar :: r1 = ts0 ++ r /\ g_path ts0 e) by (intros X; injection X as <- <-; exists (XLpar :: t1 ++ [XRpar]); split; [cbn [app]; now rewrite <- app_assoc|now apply g_par]).
      destruct r1 as [|[] r1]; try (now apply Hl); apply Hs in H as (t2 & ss & -> & G & ->).
      * exists (XLpar :: t1 ++ XRpar :: XSlash :: t2). split; [cbn [app]; now rewrite <- app_assoc|now apply g_from].
      * exists (XLpar :: t1 ++ XRpar :: XSlashes :: t2). split; [cbn [app]; now rewrite <- app_assoc|now apply g_from_below].
Qed.

(* ---------------------------------------------------------------- *)
(** ** What is in the grammar is read *)
Scheme g_or_mut := Minimality for g_or Sort Prop with g_and_mut := Minimality for g_and Sort Prop with g_atom_mut := Minimality for g_atom Sort Prop.
Combined Scheme g_preds_mut from g_or_mut, g_and_mut, g_atom_mut.
Scheme g_union_mut := Minimality for g_union Sort Prop with g_path_mut := Minimality for g_path Sort Prop.
Combined Scheme g_expr_mut from g_union_mut, g_path_mut.
Definition before (P : xtok -> Prop) (r : list xtok) : Prop := match r with [] => True | t :: _ => P t end.
Definition ends_or (t : xtok) : Prop := t = XRpar \/ t = XRbr.
Definition ends_and (t : xtok) : Prop := ends_or t \/ exists o, t = XName o /\ o <> u "and".
Definition ends_atom (t : xtok) : Prop := ends_or t \/ exists o, t = XName o.
Definition ends_node (t : xtok) : Prop := t <> XColons /\ t <> XLpar.
Definition ends_steps (t : xtok) : Prop := t = XRpar \/ t = XBar.
Lemma before_weaken (P Q : xtok -> Prop) r : (forall t, P t -> Q t) -> before P r -> before Q r.
Proof. intros H. destruct r; cbn; auto. Qed.
Lemma g_node_length ts a t : g_node ts a t -> 1 <= length ts.
Proof. destruct 1; cbn [length]; lia. Qed.
Lemma node_reads ts a t r : g_node ts a t -> before ends_node r -> p_node (ts ++ r) = Some (a, t, r).
Proof.
  intros H Hr. destruct H as [n| |x a n Hx|x a Hx]; cbn [app].
  - unfold p_node. destruct r as [|[] r]; try reflexivity; cbn in Hr; destruct Hr as [A B]; now (destruct A || destruct B).
  - reflexivity.
  - cbn [p_node]. now rewrite (proj2 (axis_spec (u x) a) (ex_intro _ x (conj eq_refl Hx))).
  - cbn [p_node]. now rewrite (proj2 (axis_spec (u x) a) (ex_intro _ x (conj eq_refl Hx))).
Qed.
Lemma atom_default f ts : (forall n r, ts <> XAt :: XName n :: r) -> (forall n r, ts <> XName n :: XLpar :: r) -> (forall r, ts <> XLpar :: r) ->
  p_atom (S f) ts = option_map (fun x => (PHas (fst (fst x)) (snd (fst x)), snd x)) (p_node ts).
Proof.
  intros A B C. cbn [p_atom]. destruct ts as [|[n| | | | | | | | | | | | |] ts]; try reflexivity.
  - destruct ts as [|[] ts]; try reflexivity. now destruct (B n ts).
  - now destruct (C ts).
  - destruct ts as [|[n| | | | | | | | | | | | |] ts]; try reflexivity. now destruct (A n ts).
Qed.
Lemma node_shape ts a t r : g_node ts a t -> before ends_node r -> (forall n r', ts ++ r <> XAt :: XName n :: r') /\ (forall n r', ts ++ r <> XName n :: XLpar :: r') /\ (forall r', ts ++ r <> XLpar :: r') /\ (forall r', ts ++ r <> XDot :: r') /\
  (forall r', ts ++ r <> XSlash :: r') /\ (forall r', ts ++ r <> XSlashes :: r').
Proof.
  intros H Hr. destruct H as [n| |x a n Hx|x a Hx]; cbn [app]; repeat split; intros; try discriminate. intros E. injection E as _ ->. cbn in Hr. now destruct Hr as [_ B].
Qed.
Lemma preds_read_back :
  (forall ts p, g_or ts p -> 1 <= length ts /\ forall f r, 2 * length ts + 1 <= f -> before ends_or r -> p_or f (ts ++ r) = Some (p, r)) /\
  (forall ts p, g_and ts p -> 1 <= length ts /\ forall f r, 2 * length ts <= f -> before ends_and r -> p_and f (ts ++ r) = Some (p, r)) /\
  (forall ts p, g_atom ts p -> 1 <= length ts /\ forall f r, 2 * length ts <= S f -> before ends_atom r -> p_atom f (ts ++ r) = Some (p, r)).
Proof.
  apply g_preds_mut.
  - intros ts p _ [L IH]. split; [exact L|]. intros f r Hf Hr. destruct f as [|f]; [lia|]. cbn [p_or]. rewrite IH; [|lia|exact (before_weaken _ _ _ (fun t H => or_introl H) Hr)].
    destruct r as [|t r]; [reflexivity|]. cbn in Hr. destruct Hr as [-> | ->]; reflexivity.
  - intros ts ts' p q _ [L IH] _ [L' IH']. split; [rewrite app_length; lia|]. intros f r Hf Hr. rewrite app_length in Hf. cbn [length] in Hf. destruct f as [|f]; [lia|]. rewrite <- app_assoc. cbn [app p_or].
    rewrite IH; [|lia|right; now exists (u "or")]. change (streq (u "or") (u "or")) with true. cbv iota. rewrite IH'; [reflexivity|lia|exact Hr].
  - intros ts p _ [L IH]. split; [exact L|]. intros f r Hf Hr. destruct f as [|f]; [lia|]. cbn [p_and]. rewrite IH; [|lia|apply (before_weaken ends_and); [intros t [H|(o & H & _)]; [now left|right; now exists o]|exact Hr]].
    destruct r as [|t r]; [reflexivity|]. cbn in Hr. destruct Hr as [[-> | ->]|(o & -> & Ho)]; try reflexivity. destruct (streq o (u "and")) eqn:E; [apply streq_true in E; now destruct Ho|reflexivity].
  - intros ts ts' p q _ [L IH] _ [L' IH']. split; [rewrite app_length; lia|]. intros f r Hf Hr. rewrite app_length in Hf. cbn [length] in Hf. destruct f as [|f]; [lia|]. rewrite <- app_assoc. cbn [app p_and].
    rewrite IH; [|lia|right; now exists (u "and")]. change (streq (u "and") (u "and")) with true. cbv iota. rewrite IH'; [reflexivity|lia|exact Hr].
  - intros n. split; [cbn [length]; lia|]. intros f r Hf Hr. cbn [length] in Hf. destruct f as [|f]; [lia|]. cbn [app p_atom]. destruct r as [|t r]; [reflexivity|]. cbn in Hr. destruct Hr as [[-> | ->]|(o & ->)]; reflexivity.
  - intros n v. split; [cbn [length]; lia|]. intros f r Hf Hr. cbn [length] in Hf. destruct f as [|f]; [lia|]. reflexivity.
  - intros ts p _ [L IH]. split; [cbn [length]; lia|]. intros f r Hf Hr. cbn [length] in Hf. rewrite app_length in Hf. cbn [length] in Hf. destruct f as [|f]; [lia|]. cbn [app p_atom]. change (streq (u "not") (u "not")) with true. cbv iota.
    rewrite <- app_assoc. cbn [app]. rewrite IH; [reflexivity|lia|now left].
  - intros ts p _ [L IH]. split; [cbn [length]; lia|]. intros f r Hf Hr. cbn [length] in Hf. rewrite app_length in Hf. cbn [length] in Hf. destruct f as [|f]; [lia|]. cbn [app p_atom].
    rewrite <- app_assoc. cbn [app]. rewrite IH; [reflexivity|lia|now left].
  - intros ts a t G. pose proof (g_node_length _ _ _ G) as L. split; [exact L|]. intros f r Hf Hr. destruct f as [|f]; [lia|].
    assert (Hn : before ends_node r) by (apply (before_weaken ends_atom); [intros x [[-> | ->]|(o & ->)]; split; discriminate|exact Hr]).
    destruct (node_shape _ _ _ _ G Hn) as (A & B & C & _). rewrite (atom_default f (ts ++ r) A B C), (node_reads _ _ _ _ G Hn). reflexivity.
Qed.
Definition ends_step (t : xtok) : Prop := ends_node t /\ t <> XLbr.
Lemma pred_list_reads ts ps : g_preds ts ps -> forall f r, 2 * length ts <= f -> before (fun t => t <> XLbr) r -> p_preds f (ts ++ r) = Some (ps, r).
Proof.
  induction 1 as [|ts ts' p ps G _ IH]; intros f r Hf Hr.
  - cbn [app]. destruct f as [|f], r as [|[] r]; try reflexivity; cbn in Hr; now destruct Hr.
  - cbn [length] in Hf. rewrite app_length in Hf. cbn [length] in Hf. destruct f as [|f]; [lia|]. cbn [app p_preds]. rewrite <- app_assoc. cbn [app].
    rewrite (proj2 (proj1 preds_read_back _ _ G)); [|lia|now right]. rewrite IH; [reflexivity|lia|exact Hr].
Qed.
Lemma g_preds_head ts ps r : g_preds ts ps -> before ends_node r -> before ends_node (ts ++ r).
Proof. intros G H; destruct G; [exact H|]. cbn. split; discriminate. Qed.
Lemma step_default f ts : (forall r, ts <> XDot :: r) -> p_step f ts = match p_node ts with Some (a, t, r) => option_map (fun x => (mkStep a t (fst x), snd x)) (p_preds f r) | None => None end.
Proof. intros H. unfold p_step. destruct ts as [|[] ts]; try reflexivity. now destruct (H ts). Qed.
Lemma g_step_length ts s : g_step ts s -> 1 <= length ts.
Proof. destruct 1 as [|ts ts' a t ps G _]; [reflexivity|]. rewrite app_length. pose proof (g_node_length _ _ _ G). lia. Qed.
Lemma step_reads ts s : g_step ts s -> forall f r, 2 * length ts <= f -> before ends_step r -> p_step f (ts ++ r) = Some (s, r).
Proof.
  intros [|ts1 ts2 a t ps G Gp] f r Hf Hr; [reflexivity|]. rewrite app_length in Hf. rewrite <- app_assoc.
  assert (Hn : before ends_node (ts2 ++ r)) by (apply (g_preds_head _ _ _ Gp), (before_weaken ends_step); [now intros x [H _]|exact Hr]).
  destruct (node_shape _ _ _ _ G Hn) as (_ & _ & _ & D & _). rewrite (step_default f _ D), (node_reads _ _ _ _ G Hn), (pred_list_reads _ _ Gp); [reflexivity|lia|]. apply (before_weaken ends_step); [now intros x [_ H]|exact Hr].
Qed.
Lemma steps_reads ts ss : g_steps ts ss -> 1 <= length ts /\ forall f r, 2 * length ts + 1 <= f -> before ends_steps r -> p_steps f (ts ++ r) = Some (ss, r).
Proof.
  induction 1 as [ts s G|ts ts' s ss G _ [L IH]|ts ts' s ss G _ [L IH]]; pose proof (g_step_length _ _ G) as L1; (split; [rewrite ?app_length; lia|]); intros f r Hf Hr; (destruct f as [|f]; [lia|]); cbn [p_steps].
  - rewrite (step_reads _ _ G); [|lia|apply (before_weaken ends_steps); [intros t [-> | ->]; repeat split; discriminate|exact Hr]]. destruct r as [|t r]; [reflexivity|]. cbn in Hr. destruct Hr as [-> | ->]; reflexivity.
  - rewrite app_length in Hf. cbn [length] in Hf. rewrite <- app_assoc. cbn [app]. rewrite (step_reads _ _ G); [|lia|repeat split; discriminate]. rewrite IH; [reflexivity|lia|exact Hr].
  - rewrite app_length in Hf. cbn [length] in Hf. rewrite <- app_assoc. cbn [app]. rewrite (step_reads _ _ G); [|lia|repeat split; discriminate]. rewrite IH; [reflexivity|lia|exact Hr].
Qed.
Lemma steps_shape ts ss r : g_steps ts ss -> before ends_steps r -> (forall r', ts ++ r <> XLpar :: r') /\ (forall r', ts ++ r <> XSlash :: r') /\ (forall r', ts ++ r <> XSlashes :: r').
Proof.
  assert (S : forall ts s r, g_step ts s -> before ends_node r -> (forall r', ts ++ r <> XLpar :: r') /\ (forall r', ts ++ r <> XSlash :: r') /\ (forall r', ts ++ r <> XSlashes :: r')).
  { intros t0 s r0 [|ts1 ts2 a t ps G Gp] Hr; [repeat split; intros r' E; discriminate|]. rewrite <- app_assoc. destruct (node_shape _ _ _ (ts2 ++ r0) G (g_preds_head _ _ _ Gp Hr)) as (_ & _ & A & _ & B & C). now repeat split. }
  intros [t0 s G|t0 t1 s ss' G _|t0 t1 s ss' G _] Hr; rewrite <- ?app_assoc; apply (S _ s); try exact G; cbn [app]; [|split; discriminate|split; discriminate].
  apply (before_weaken ends_steps); [intros t [-> | ->]; split; discriminate|exact Hr].
Qed.
Lemma path_default f ts : (forall r, ts <> XLpar :: r) -> (forall r, ts <> XSlash :: r) -> (forall r, ts <> XSlashes :: r) -> p_path (S f) ts = with_steps (ELoc false) (p_steps f ts).
Proof. intros A B C. cbn [p_path]. destruct ts as [|[] ts]; try reflexivity; [now destruct (B ts)|now destruct (C ts)|now destruct (A ts)]. Qed.
Lemma union_reads :
  (forall ts e, g_union ts e -> 1 <= length ts /\ forall f r, 2 * length ts + 3 <= f -> before (fun t => t = XRpar) r -> p_union f (ts ++ r) = Some (e, r)) /\
  (forall ts e, g_path ts e -> 1 <= length ts /\ forall f r, 2 * length ts + 2 <= f -> before ends_steps r -> p_path f (ts ++ r) = Some (e, r)).
Proof.
  apply g_expr_mut.
  - intros ts e _ [L IH]. split; [exact L|]. intros f r Hf Hr. destruct f as [|f]; [lia|]. cbn [p_union]. rewrite IH; [|lia|apply (before_weaken (fun t => t = XRpar)); [now left|exact Hr]]. destruct r as [|t r]; [reflexivity|]. cbn in Hr. now subst t.
  - intros ts ts' e e' _ [L IH] _ [L' IH']. split; [rewrite app_length; lia|]. intros f r Hf Hr. rewrite app_length in Hf. cbn [length] in Hf. destruct f as [|f]; [lia|]. rewrite <- app_assoc. cbn [app p_union]. rewrite IH; [|lia|now right]. rewrite IH'; [reflexivity|lia|exact Hr].
  - intros ts ss G. destruct (steps_reads _ _ G) as [L R]. split; [exact L|]. intros f r Hf Hr. destruct f as [|f]; [lia|]. destruct (steps_shape _ _ _ G Hr) as (A & B & C). rewrite (path_default f _ A B C), R; [reflexivity|lia|exact Hr].
  - intros ts ss G. destruct (steps_reads _ _ G) as [L R]. split; [cbn [length]; lia|]. intros f r Hf Hr. cbn [length] in Hf. destruct f as [|f]; [lia|]. cbn [app p_path]. rewrite R; [reflexivity|lia|exact Hr].
  - intros ts ss G. destruct (steps_reads _ _ G) as [L R]. split; [cbn [length]; lia|]. intros f r Hf Hr. cbn [length] in Hf. destruct f as [|f]; [lia|]. cbn [app p_path]. rewrite R; [reflexivity|lia|exact Hr].
  - intros ts e _ [L IH]. split; [cbn [length]; lia|]. intros f r Hf Hr. cbn [length] in Hf. rewrite app_length in Hf. cbn [length] in Hf. destruct f as [|f]; [lia|]. cbn [app p_path]. rewrite <- app_assoc. cbn [app]. rewrite IH; [|lia|reflexivity].
    destruct r as [|t r]; [reflexivity|]. cbn in Hr. destruct Hr as [-> | ->]; reflexivity.
  - intros ts ts' e ss _ [L IH] G. destruct (steps_reads _ _ G) as [L' R]. split; [cbn [length]; lia|]. intros f r Hf Hr. cbn [length] in Hf. rewrite app_length in Hf. cbn [length] in Hf. destruct f as [|f]; [lia|]. cbn [app p_path]. rewrite <- app_assoc. cbn [app]. rewrite IH; [|lia|reflexivity].
    rewrite R; [reflexivity|lia|exact Hr].
  - intros ts ts' e ss _ [L IH] G. destruct (steps_reads _ _ G) as [L' R]. split; [cbn [length]; lia|]. intros f r Hf Hr. cbn [length] in Hf. rewrite app_length in Hf. cbn [length] in Hf. destruct f as [|f]; [lia|]. cbn [app p_path]. rewrite <- app_assoc. cbn [app]. rewrite IH; [|lia|reflexivity].
    rewrite R; [reflexivity|lia|exact Hr].
Qed.

(* ---------------------------------------------------------------- *)
(** ** Theorems *)
Theorem C123_words : forall s ts, lex LStart s = Some ts <-> words s ts.
Proof. intros s ts. split; [apply lexed_words|apply words_lexed]. Qed.
(** an expression is read if, and as, it is written *)
Theorem C123_grammar : forall s e, parse_xpath s = Some e <-> exists ts, words s ts /\ g_union ts e.
Proof.
  intros s e. unfold parse_xpath. split.
  - destruct (lex LStart s) as [ts|] eqn:E; [|discriminate]. apply C123_words in E. destruct (p_union _ ts) as [[e' [|? ?]]|] eqn:U; try discriminate. intros H. injection H as ->. apply union_read in U as (t0 & -> & G). rewrite app_nil_r in E. now exists t0.
  - intros (ts & W & G). apply C123_words in W. rewrite W. destruct (proj1 union_reads _ _ G) as [_ R]. specialize (R (2 * length ts + 4) [] ltac:(lia) I). rewrite app_nil_r in R. now rewrite R.
Qed.
(** the grammar is not ambiguous *)
Theorem C123_unambiguous : forall s ts ts' e e', words s ts -> g_union ts e -> words s ts' -> g_union ts' e' -> ts = ts' /\ e = e'.
Proof.
  intros s ts ts' e e' W G W' G'. pose proof (proj2 (C123_grammar s e) (ex_intro _ ts (conj W G))) as H. pose proof (proj2 (C123_grammar s e') (ex_intro _ ts' (conj W' G'))) as H'. apply C123_words in W, W'. split; congruence.
Qed.

(* ---------------------------------------------------------------- *)
(** ** Examples *)
Example C123_ex_words : words (u "/a//b-1 [@k='v']") [XSlash; XName (u "a"); XSlashes; XName (u "b-1"); XLbr; XAt; XName (u "k"); XEq; XLit (u "v"); XRbr].
Proof. apply C123_words. vm_compute. reflexivity. Qed.
Example C123_ex_read : parse_xpath (u "(a|/b)//self::*[@k or not(c and .. )]") = None /\
  parse_xpath (u "(a|/b)//self::*[@k or not(c and *)]") =
    Some (EFrom (EUnion (ELoc false [mkStep AChild (TName (u "a")) []]) (ELoc true [mkStep AChild (TName (u "b")) []]))
            [slashes; mkStep ASelf TElement [POr (PAttr (u "k")) (PNot (PAnd (PHas AChild (TName (u "c"))) (PHas AChild TElement)))]]).
Proof. split; vm_compute; reflexivity. Qed.
Example C123_ex_grammar : g_union [XSlash; XName (u "a"); XSlashes; XName (u "b"); XBar; XDot] (EUnion (ELoc true [mkStep AChild (TName (u "a")) []; slashes; mkStep AChild (TName (u "b")) []]) (ELoc false [mkStep ASelf TNode []])).
Proof.
  apply (g_more [XSlash; XName (u "a"); XSlashes; XName (u "b")] [XDot]).
  - apply (g_absolute [XName (u "a"); XSlashes; XName (u "b")]). apply (g_slashes [XName (u "a")] [XName (u "b")]).
    + apply (g_test [XName (u "a")] []); constructor.
    + apply g_last, (g_test [XName (u "b")] []); constructor.
  - apply g_one, g_relative, g_last, g_dot.
Qed.
(** nothing is written so *)
Example C123_ex_wrong : ~ exists e ts, words (u ".//") ts /\ g_union ts e.
Proof. intros (e & ts & W & G). pose proof (proj2 (C123_grammar _ e) (ex_intro _ ts (conj W G))) as H. vm_compute in H. discriminate. Qed.
Print Assumptions C123_words.
Print Assumptions C123_grammar.
Print Assumptions C123_unambiguous.
