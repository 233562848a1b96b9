(** C137: sub tags of the commands are written inside of the element of their tag *)
From Verif Require Import Base ModelTags ModelTokenize ModelXml ModelTei ModelTeiDoc SpecTeiRead SpecTeiWrite ProofTeiWrite PropTokenize PropTeiRead PropTeiWrite
  PropTeiPrefix ModelMapping ModelCommands PropCommands.
Open Scope list_scope.
Open Scope nat_scope.

(* ---------------------------------------------------------------- *)
(** ** Specification *)
(** [x] is a sub tag of [b]: the names of sub tags start with that of the tag and a hyphen; both have a path of their own *)
Definition sub_tag_of (m : list (str * str)) (b x : str) : Prop :=
  In b (map fst m) /\ In x (map fst m) /\ exists s, b <> [] /\ x = b ++ 45%N :: s.

(* ---------------------------------------------------------------- *)
Fixpoint strictly_below (p q : list str) : bool :=
  match p, q with [], _ :: _ => true | a :: p', b :: q' => streq a b && strictly_below p' q' | _, _ => false end.
Lemma strictly_below_ok p q : strictly_below p q = true -> exists r, r <> [] /\ q = p ++ r.
Proof.
  revert q. induction p as [|a p IH]; intros [|b q]; cbn; try discriminate.
  - intros _. exists (b :: q). split; [discriminate|reflexivity].
  - intros H. apply andb_true_iff in H as [H1 H2]. apply streq_true in H1. subst b. destruct (IH q H2) as (r & Hr & ->). exists r. split; [exact Hr|reflexivity].
Qed.
Definition all_below (m : list (str * str)) : bool :=
  forallb (fun b => forallb (fun x => match b with [] => true | _ => negb (starts_with (b ++ [45%N]) x) || strictly_below (tag_required_path m (Some b)) (tag_required_path m (Some x)) end) (map fst m)) (map fst m).
Lemma resolved_below wd c : ascii_right wd -> all_below (resolved_mapping wd c) = true.
Proof. intros H. rewrite (resolved_ascii wd c H). destruct c; vm_compute; reflexivity. Qed.
Lemma extend_get fields : forall (m : list (str * str)) k, In k (map fst m) -> dict_get k (extend_mapping fields m) = dict_get k m.
Proof.
  induction fields as [|f fields IH]; intros m k Hk; cbn [extend_mapping fold_left]; [reflexivity|].
  fold (extend_mapping fields (match dict_get f m with Some _ => m | None => dict_set f (note_path f) m end)).
  destruct (dict_get f m) eqn:E; [now apply IH|]. assert (Hn : k <> f) by (intros ->; apply dict_get_None in E; contradiction).
  assert (G : dict_get k (dict_set f (note_path f) m) = dict_get k m) by (apply dict_get_set_other; congruence).
  rewrite IH; [exact G|]. destruct (in_dec (list_eq_dec N.eq_dec) k (map fst (dict_set f (note_path f) m))) as [Hi|Hi]; [exact Hi|].
  apply dict_get_None in Hi. rewrite G in Hi. apply dict_get_None in Hi. contradiction.
Qed.
Lemma command_path wd c fields k : In k (map fst (resolved_mapping wd c)) -> k <> [] ->
  tag_required_path (command_mapping wd c fields) (Some k) = tag_required_path (resolved_mapping wd c) (Some k).
Proof. intros H Hk. unfold tag_required_path. destruct k as [|a k]; [congruence|]. destruct c; cbn [command_mapping]; try rewrite extend_get by exact H; reflexivity. Qed.

(** The path of a sub tag goes on from the path of its tag. *)
Theorem C137_below wd c fields b x : ascii_right wd -> sub_tag_of (resolved_mapping wd c) b x ->
  exists r, r <> [] /\ tag_required_path (command_mapping wd c fields) (Some x) = tag_required_path (command_mapping wd c fields) (Some b) ++ r.
Proof.
  intros Hw (Hb & Hx & s & Hn & E). pose proof (resolved_below wd c Hw) as R. unfold all_below in R. rewrite forallb_forall in R. specialize (R b Hb).
  rewrite forallb_forall in R. specialize (R x Hx). rewrite !command_path; [|exact Hb|exact Hn|exact Hx|subst x; destruct b; discriminate].
  destruct b as [|a b]; [congruence|]. apply strictly_below_ok. apply orb_true_iff in R as [R|R]; [|exact R]. exfalso. apply negb_true_iff in R.
  assert (T : starts_with ((a :: b) ++ [45%N]) x = true) by (apply starts_with_spec; exists s; rewrite E, <- app_assoc; reflexivity). congruence.
Qed.
(** So a word with a tag and one of its sub tags is written at the path of the sub tag, which lies in the element of the tag. *)
Theorem C137_written wd c fields t b x : ascii_right wd -> sub_tag_of (resolved_mapping wd c) b x ->
  strip_tag_prefix (oor (tag t) (ptag t)) = Some b -> strip_tag_prefix (oor (sub t) (psub t)) = Some x ->
  exists r, r <> [] /\ required_path (command_mapping wd c fields) t = tag_required_path (command_mapping wd c fields) (Some b) ++ r /\
    required_path (command_mapping wd c fields) t = tag_required_path (command_mapping wd c fields) (Some x).
Proof.
  intros Hw Hs Hb Hx. destruct (C137_below wd c fields b x Hw Hs) as (r & Hr & E). exists r. split; [exact Hr|].
  assert (Q : required_path (command_mapping wd c fields) t = tag_required_path (command_mapping wd c fields) (Some x)).
  { unfold required_path, sub_path, main_path, main_full_tag, sub_full_tag. rewrite Hb, Hx.
    assert (T : truthy (oor (sub t) (psub t)) = true).
    { destruct (oor (sub t) (psub t)) as [[|n v]|]; [|reflexivity|discriminate Hx]. exfalso. cbn in Hx. destruct Hs as (_ & _ & s & Hn & Ex). destruct b; [congruence|].
      rewrite Ex in Hx. vm_compute in Hx. discriminate Hx. }
    rewrite T, E. cbv zeta. match goal with |- context [path_starts_with ?p ?q] => assert (S : path_starts_with p q = true) by (apply starts_prefix; now exists r); rewrite S end. reflexivity. }
  split; [now rewrite Q|exact Q].
Qed.

(* ---------------------------------------------------------------- *)
(** ** Examples *)
Example C137_ex : sub_tag_of (resolved_mapping ascii_word CFulltext) (u "section_paragraph") (u "section_paragraph-xref-bib") /\
  required_path (command_mapping ascii_word CFulltext []) (mkTok (u "[1]") (Some (u "i-section_paragraph")) (Some (u "b-section_paragraph-xref-bib")) None None None) =
    [u "p"; u "ref[@type=""biblio""]"].
Proof.
  split; [|vm_compute; reflexivity]. split; [vm_compute; tauto|]. split; [vm_compute; tauto|]. exists (u "xref-bib"). split; [discriminate|reflexivity].
Qed.
(** every command with sub tags *)
Example C137_commands_ex :
  sub_tag_of (resolved_mapping ascii_word CReference) (u "reference") (u "reference-year") /\
  sub_tag_of (resolved_mapping ascii_word CFigure) (u "figure") (u "figure-label") /\
  sub_tag_of (resolved_mapping ascii_word CTable) (u "table") (u "table-label").
Proof.
  split; [|split]; (split; [vm_compute; tauto|]; split; [vm_compute; tauto|]); [exists (u "year")|exists (u "label")|exists (u "label")]; (split; [discriminate|reflexivity]).
Qed.
(** a further field with such a name has no place in the element: the sub tag is not written *)
Theorem C137_added_refuted : exists t, let m := command_mapping ascii_word CFigure [u "figure-note"] in
  In (u "figure-note") (map fst m) /\ strip_tag_prefix (tag t) = Some (u "figure") /\ strip_tag_prefix (sub t) = Some (u "figure-note") /\
  required_path m t = tag_required_path m (Some (u "figure")).
Proof.
  exists (mkTok (u "x") (Some (u "b-figure")) (Some (u "b-figure-note")) None None None). split; [vm_compute; tauto|]. repeat split; vm_compute; reflexivity.
Qed.

Print Assumptions C137_below.
Print Assumptions C137_written.
Print Assumptions C137_added_refuted.
