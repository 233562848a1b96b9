From Verif Require Import Base ModelTokenize.

Section Tok.
Variables wd up lo : N -> bool.

(** two adjacent characters belong to the same token *)
Definition same_token (a b : N) : bool := wd a && wd b && negb (lo a && up b).

Fixpoint glue (t : str) : list str :=
  match t with
  | [] => []
  | c :: t' =>
      match glue t' with
      | (d :: w) :: r => if same_token c d then (c :: d :: w) :: r else [c] :: (d :: w) :: r
      | r => [c] :: r
      end
  end.

Lemma glue_nonempty t : Forall (fun s => s <> []) (glue t).
Proof.
  induction t as [|c t IH]; cbn; [constructor|].
  destruct (glue t) as [|[|d w] r].
  - repeat constructor; discriminate.
  - inversion IH; congruence.
  - destruct (same_token c d).
    + inversion IH; constructor; auto; discriminate.
    + constructor; auto; discriminate.
Qed.

Lemma glue_concat t : concat (glue t) = t.
Proof.
  induction t as [|c t IH]; cbn; [reflexivity|].
  destruct (glue t) as [|[|d w] r]; cbn in *; [now subst|now subst|].
  destruct (same_token c d); cbn; now subst.
Qed.

Lemma glue_head t c : exists w r, glue (c :: t) = (c :: w) :: r.
Proof.
  cbn. destruct (glue t) as [|[|d w] r]; eauto.
  destruct (same_token c d); eauto.
Qed.

Lemma glue_cons c t : glue (c :: t) =
  match glue t with
  | (d :: w) :: r => if same_token c d then (c :: d :: w) :: r else [c] :: (d :: w) :: r
  | r => [c] :: r
  end.
Proof. reflexivity. Qed.

(** splitting at a point where the neighbours do not belong together *)
Lemma glue_app a c t :
  match a with [] => True | _ => same_token (last a 0%N) c = false end ->
  glue (a ++ c :: t) = glue a ++ glue (c :: t).
Proof.
  induction a as [|x a IH]; intros H; [reflexivity|].
  destruct a as [|y a].
  - cbn [last] in H. cbn [app]. rewrite (glue_cons x), (glue_cons x []).
    destruct (glue_head t c) as (w & r & ->). rewrite H. reflexivity.
  - specialize (IH H). change ((x :: y :: a) ++ c :: t) with (x :: ((y :: a) ++ c :: t)).
    rewrite (glue_cons x), IH, (glue_cons x).
    destruct (glue_head a y) as (w & r & ->).
    cbn [app]. destruct (same_token x y); reflexivity.
Qed.

(** a run without inner boundaries is one token *)
Fixpoint run (l : str) : Prop :=
  match l with
  | a :: ((b :: _) as l') => same_token a b = true /\ run l'
  | _ => True
  end.

Lemma glue_run l : l <> [] -> run l -> glue l = [l].
Proof.
  induction l as [|a l IH]; [congruence|]. intros _ H.
  destruct l as [|b l]; [reflexivity|].
  destruct H as [H1 H2].
  rewrite glue_cons.
  rewrite IH; [|discriminate|exact H2]. rewrite H1. reflexivity.
Qed.

Lemma run_snoc l y c : run (l ++ [y]) -> same_token y c = true -> run (l ++ [y; c]).
Proof.
  induction l as [|a l IH]; cbn; [auto|].
  destruct l as [|b l]; cbn in *; [tauto|].
  intros [H1 H2] H. split; [exact H1|]. apply IH; auto.
Qed.

Lemma last_rev {A} (x : A) l d : last (rev l ++ [x]) d = x.
Proof. apply last_last. Qed.

(** lower/upper splitting of a word run *)
Lemma split_lower_upper_go_glue text : forall p cur,
  run (rev (p :: cur)) -> wd p = true -> forallb wd text = true ->
  split_lower_upper_go up lo (Some p) (p :: cur) text = glue (rev (p :: cur) ++ text).
Proof.
  induction text as [|c text IH]; intros p cur Hrun Hp Hwd.
  - cbn [split_lower_upper_go]. rewrite app_nil_r.
    rewrite glue_run; auto. cbn. destruct (rev cur); discriminate.
  - cbn in Hwd. apply andb_true_iff in Hwd as [Hc Hwd].
    cbn [split_lower_upper_go].
    destruct (up c && lo p) eqn:E.
    + rewrite IH; [|exact I|exact Hc|exact Hwd].
      rewrite glue_app.
      * rewrite (glue_run (rev (p :: cur))); auto.
        cbn. destruct (rev cur); discriminate.
      * cbn [rev]. destruct (rev cur ++ [p]) eqn:E2; [exact I|]. rewrite <- E2, last_last.
        unfold same_token. rewrite Hp, Hc. rewrite andb_comm in E. now rewrite E.
    + rewrite (IH c (p :: cur)); auto.
      * cbn [rev]. rewrite <- !app_assoc. reflexivity.
      * cbn [rev]. rewrite <- app_assoc. apply run_snoc; [exact Hrun|].
        unfold same_token. rewrite Hp, Hc. rewrite andb_comm in E. now rewrite E.
Qed.

Lemma split_lower_upper_glue w : forallb wd w = true -> split_lower_upper up lo w = glue w.
Proof.
  destruct w as [|c w]; [reflexivity|]. intros H. unfold split_lower_upper.
  cbn [split_lower_upper_go]. cbn in H. apply andb_true_iff in H as [Hc H].
  rewrite split_lower_upper_go_glue; auto. exact I.
Qed.

Lemma split_lower_upper_one c : split_lower_upper up lo [c] = [[c]].
Proof. reflexivity. Qed.

Lemma split_nonword_go_glue text : forall cur,
  forallb wd (rev cur) = true ->
  flat_map (split_lower_upper up lo) (split_nonword_go wd cur text) = glue (rev cur ++ text).
Proof.
  induction text as [|c text IH]; intros cur Hcur; cbn [split_nonword_go].
  - cbn. rewrite !app_nil_r. now apply split_lower_upper_glue.
  - destruct (wd c) eqn:Hc.
    + rewrite IH.
      * cbn [rev]. now rewrite <- app_assoc.
      * cbn [rev]. rewrite forallb_app, Hcur. cbn. now rewrite Hc.
    + cbn [flat_map]. rewrite IH; [|reflexivity].
      rewrite split_lower_upper_glue; auto. rewrite split_lower_upper_one.
      rewrite glue_app.
      * f_equal. cbn [rev app].
        destruct text as [|d text]; [reflexivity|].
        change (c :: d :: text) with ([c] ++ d :: text). rewrite (glue_app [c]).
        -- reflexivity.
        -- cbn. unfold same_token. now rewrite Hc.
      * destruct (rev cur) eqn:E; [exact I|]. rewrite <- E.
        unfold same_token. rewrite Hc. now rewrite andb_false_r.
Qed.

Lemma filter_all {A} (f : A -> bool) l : Forall (fun x => f x = true) l -> filter f l = l.
Proof. induction 1; cbn; [reflexivity|]. rewrite H. now f_equal. Qed.

Lemma tokenize_glue text : tokenize_text wd up lo text = glue text.
Proof.
  unfold tokenize_text, split_nonword. rewrite split_nonword_go_glue; [|reflexivity].
  cbn [rev app]. apply filter_all.
  eapply Forall_impl; [|apply glue_nonempty]. intros [|] H; [congruence|reflexivity].
Qed.

(** tokens have no inner boundary, and there is a boundary between any two *)
Lemma glue_run_all t : Forall run (glue t).
Proof.
  induction t as [|c t IH]; cbn; [constructor|].
  destruct (glue t) as [|[|d w] r].
  - repeat constructor.
  - inversion IH; repeat constructor; auto.
  - destruct (same_token c d) eqn:E.
    + inversion IH. constructor; auto. cbn. split; auto.
    + constructor; [exact I|exact IH].
Qed.

Fixpoint boundaries (l : list str) : Prop :=
  match l with
  | a :: ((b :: _) as l') => same_token (last a 0%N) (hd 0%N b) = false /\ boundaries l'
  | _ => True
  end.

Lemma glue_boundaries t : boundaries (glue t).
Proof.
  induction t as [|c t IH]; [exact I|].
  assert (NE := glue_nonempty t). cbn [glue].
  destruct (glue t) as [|[|d w] r]; [exact I|inversion NE; congruence|].
  destruct (same_token c d) eqn:E.
  - destruct r as [|b r]; [exact I|]. destruct IH as [H1 H2]. split; [|exact H2].
    exact H1.
  - split; [exact E|exact IH].
Qed.
End Tok.
