(** C114: XPath expressions. *)
From Coq Require Import Relations Sorted.
From Verif Require Import Base ModelXml ModelTarget ModelTargets PropTargets ModelXPath.
Open Scope list_scope.
Open Scope nat_scope.

(* ---------------------------------------------------------------- *)
(** ** Specification *)
Section Spec.
Variable root : xml.
(** nodes of the document; [None] is the document, its only child is the root element *)
Inductive child_of : cnode -> cnode -> Prop :=
| child_root : child_of None (Some [])
| child_node p i : xml_at root (p ++ [i]) <> None -> child_of (Some p) (Some (p ++ [i])).
Definition on_axis (a : xaxis) (c d : cnode) : Prop :=
  match a with
  | AChild => child_of c d
  | ASelf => d = c
  | AAncestor => clos_trans _ child_of d c
  | ADescend => clos_refl_trans _ child_of c d
  end.
Definition element (c : cnode) (name : str) (attrs : list (str * str)) : Prop :=
  exists p text cs tail, c = Some p /\ xml_at root p = Some (Elem name attrs text cs tail).
Definition meets (t : xtest) (c : cnode) : Prop :=
  match t with TNode => True | TElement => exists n a, element c n a | TName n => exists a, element c n a end.
Fixpoint satisfies (p : xpred) (c : cnode) : Prop :=
  match p with
  | PAttr k => exists n a v, element c n a /\ dict_get k a = Some v
  | PAttrIs k v => exists n a, element c n a /\ dict_get k a = Some v
  | PHas x t => exists d, on_axis x c d /\ meets t d
  | PNot p => ~ satisfies p c
  | PAnd p q => satisfies p c /\ satisfies q c
  | POr p q => satisfies p c \/ satisfies q c
  end.
Inductive walk : list xstep -> cnode -> cnode -> Prop :=
| walk_end c : walk [] c c
| walk_step s ss c d e : on_axis (st_axis s) c d -> meets (st_test s) d -> (forall p, In p (st_preds s) -> satisfies p d) -> walk ss d e -> walk (s :: ss) c e.
Fixpoint selects (e : xexpr) (c d : cnode) : Prop :=
  match e with
  | ELoc absolute ss => walk ss (if absolute then None else c) d
  | EFrom e ss => exists b, selects e c b /\ walk ss b d
  | EUnion e f => selects e c d \/ selects f c d
  end.
End Spec.

(* ---------------------------------------------------------------- *)
(** ** Paths *)
Lemma erase_children x : nchildren (erase x) = map erase (xchildren x).
Proof. now destruct x. Qed.
Lemma erase_at x : forall p, node_at (erase x) p = option_map erase (xml_at x p).
Proof.
  intros p. revert x. induction p as [|i p IH]; intros x; [reflexivity|]. cbn [node_at xml_at]. rewrite erase_children, nth_error_map.
  destruct (nth_error (xchildren x) i) as [c|]; [apply IH|reflexivity].
Qed.
Lemma all_paths_in x q : In q (all_paths x) <-> xml_at x q <> None.
Proof.
  unfold all_paths. rewrite paths_in. split.
  - intros (r & -> & H). cbn [app]. rewrite erase_at in H. destruct (xml_at x r); easy.
  - intros H. exists q. split; [reflexivity|]. rewrite erase_at. destruct (xml_at x q); easy.
Qed.
Lemma xml_at_app x : forall p q, xml_at x (p ++ q) = match xml_at x p with Some y => xml_at y q | None => None end.
Proof. intros p. revert x. induction p as [|i p IH]; intros x q; [reflexivity|]. cbn. destruct (nth_error (xchildren x) i); [apply IH|reflexivity]. Qed.
Lemma ceq_spec a b : ceq a b = true <-> a = b.
Proof. destruct a as [a|], b as [b|]; cbn; try easy. rewrite peq_spec. split; congruence. Qed.
Lemma cmem_spec a l : cmem a l = true <-> In a l.
Proof. unfold cmem. rewrite existsb_exists. split; [intros (x & H & E); apply ceq_spec in E; now subst|intros H; exists a; split; [exact H|now apply ceq_spec]]. Qed.
Lemma prefixes_in p : forall q, In q (prefixes p) <-> exists i r, p = q ++ i :: r.
Proof.
  induction p as [|j p IH]; intros q; cbn [prefixes].
  - split; [intros []|]. intros (i & r & E). now destruct q.
  - cbn [In]. rewrite in_map_iff. split.
    + intros [<-|(q' & <- & H)]; [now exists j, p|]. apply IH in H as (i & r & ->). now exists i, r.
    + intros (i & r & E). destruct q as [|j' q]; [now left|]. right. injection E as -> ->. exists q. split; [reflexivity|]. apply IH. eauto.
Qed.

Section Eval.
Variable root : xml.
Notation child_of := (child_of root).
Definition is_node (c : cnode) : Prop := match c with None => True | Some p => xml_at root p <> None end.
Lemma child_is_node c d : child_of c d -> is_node d.
Proof. now intros [|p i H]. Qed.
Lemma parent_is_node c d : child_of c d -> is_node c.
Proof. intros [|p i H]; [exact I|]. cbn. rewrite xml_at_app in H. now destruct (xml_at root p). Qed.
Lemma above_ext p : forall r, r <> [] -> xml_at root (p ++ r) <> None -> clos_trans _ child_of (Some p) (Some (p ++ r)).
Proof.
  intros r. induction r as [|i r IH] using rev_ind; intros Hr H; [easy|]. rewrite app_assoc in *.
  destruct r as [|j r]; [apply t_step; rewrite app_nil_r in *; now constructor|].
  eapply t_trans; [apply IH; [easy|]|apply t_step; now constructor]. rewrite xml_at_app in H. now destruct (xml_at root (p ++ j :: r)).
Qed.
Lemma above_doc p : xml_at root p <> None -> clos_trans _ child_of None (Some p).
Proof.
  intros H. destruct p as [|i p]; [apply t_step; constructor|].
  eapply t_trans; [apply t_step; constructor|]. now apply (above_ext []).
Qed.
Lemma above_inv c d : clos_trans _ child_of c d -> match c, d with
  | None, Some p => xml_at root p <> None
  | Some p, Some q => exists r, r <> [] /\ q = p ++ r /\ xml_at root q <> None
  | _, None => False end.
Proof.
  intros H. apply clos_trans_tn1 in H. induction H as [d H|d e H _ IH].
  - inversion H as [|p i H1]; subst; cbn; [easy|]. exists [i]. now split.
  - inversion H as [E1 E2|p i H1 E1 E2]; subst; [now destruct c|].
    destruct c as [p'|]; [|exact H1]. destruct IH as (r & Hr & -> & _). exists (r ++ [i]). split; [now destruct r|]. now rewrite app_assoc.
Qed.
Lemma above_iff c d : clos_trans _ child_of c d <-> match c, d with
  | None, Some p => xml_at root p <> None
  | Some p, Some q => exists r, r <> [] /\ q = p ++ r /\ xml_at root q <> None
  | _, None => False end.
Proof.
  split; [apply above_inv|]. destruct c as [p|], d as [q|]; try easy.
  - intros (r & Hr & -> & H). now apply above_ext.
  - apply above_doc.
Qed.
Lemma below_iff c d : is_node c -> (clos_refl_trans _ child_of c d <-> d = c \/ clos_trans _ child_of c d).
Proof.
  intros _. split.
  - intros H. apply clos_rt_rtn1 in H. induction H as [|d e H _ IH]; [now left|]. right. destruct IH as [->|IH]; [now apply t_step|]. eapply t_trans; [exact IH|now apply t_step].
  - intros [->|H]; [apply rt_refl|]. induction H as [c d H|c d e _ IH1 _ IH2]; [now apply rt_step|]. eapply rt_trans; eassumption.
Qed.

Lemma axis_spec a c d : is_node c -> (In d (axis_nodes root a c) <-> on_axis root a c d).
Proof.
  intros Hc. destruct a; cbn [on_axis].
  - destruct c as [p|]; cbn [axis_nodes].
    + rewrite in_map_iff. split.
      * intros (i & <- & H). apply in_seq in H. constructor. rewrite xml_at_app. destruct (xml_at root p) as [x|]; [|lia].
        cbn. destruct (nth_error (xchildren x) i) eqn:E; [easy|]. apply nth_error_None in E. lia.
      * intros H. inversion H as [|q i H1]; subst. exists i. split; [reflexivity|]. apply in_seq. rewrite xml_at_app in H1.
        destruct (xml_at root p) as [x|]; [|easy]. cbn in H1. destruct (nth_error (xchildren x) i) eqn:E; [|easy]. assert (nth_error (xchildren x) i <> None) as N by now rewrite E. apply nth_error_Some in N. lia.
    + split; [intros [<-|[]]; constructor|intros H; inversion H; now left].
  - cbn. split; [intros [->|[]]; reflexivity|intros ->; now left].
  - rewrite above_iff. destruct c as [p|]; cbn [axis_nodes]; [|split; [intros []|now destruct d]].
    cbn [In]. rewrite in_map_iff. split.
    + intros [<-|(q & <- & H)]; [exact Hc|]. apply prefixes_in in H as (i & r & ->). exists (i :: r). now repeat split.
    + destruct d as [q|]; [|now left]. intros (r & Hr & -> & _). right. exists q. split; [reflexivity|]. apply prefixes_in. destruct r as [|i r]; [easy|]. now exists i, r.
  - rewrite below_iff by exact Hc. rewrite above_iff. destruct c as [p|]; cbn [axis_nodes].
    + cbn in Hc. destruct (xml_at root p) as [x|] eqn:E; [|easy]. rewrite in_map_iff. split.
      * intros (q & <- & H). apply all_paths_in in H. destruct q as [|i q]; [left; now rewrite app_nil_r|]. right. exists (i :: q). repeat split; [easy|]. now rewrite xml_at_app, E.
      * intros [->|H]; [exists []; rewrite app_nil_r; split; [reflexivity|]; now apply all_paths_in|]. destruct d as [q|]; [|easy]. destruct H as (r & Hr & -> & H). exists r. split; [reflexivity|].
        apply all_paths_in. now rewrite xml_at_app, E in H.
    + cbn [In]. rewrite in_map_iff. split.
      * intros [<-|(q & <- & H)]; [now left|]. right. now apply all_paths_in.
      * intros [->|H]; [now left|]. destruct d as [q|]; [|easy]. right. exists q. split; [reflexivity|]. now apply all_paths_in.
Qed.
Lemma axis_is_node a c d : is_node c -> on_axis root a c d -> is_node d.
Proof.
  intros Hc. destruct a; cbn [on_axis].
  - apply child_is_node.
  - now intros ->.
  - intros H. apply above_inv in H. destruct d as [q|]; [|exact I]. destruct c as [p|]; [|easy]. destruct H as (r & _ & -> & H). cbn. rewrite xml_at_app in H. now destruct (xml_at root q).
  - rewrite below_iff by exact Hc. intros [->|H]; [exact Hc|]. apply above_inv in H. destruct d as [q|]; [|exact I]. destruct c as [p|]; [|exact H]. now destruct H as (r & _ & _ & H).
Qed.
Lemma elem_spec c n a : elem_at root c = Some (n, a) <-> element root c n a.
Proof.
  unfold elem_at, element. split.
  - destruct c as [p|]; [|easy]. destruct (xml_at root p) as [[m b t cs tl|tl]|] eqn:E; try easy. intros [= -> ->]. now exists p, t, cs, tl.
  - intros (p & t & cs & tl & -> & ->). reflexivity.
Qed.
Lemma test_spec t c : test_holds root t c = true <-> meets root t c.
Proof.
  destruct t as [n| |]; cbn.
  - destruct (elem_at root c) as [[m a]|] eqn:E.
    + rewrite streq_true. split; [intros ->; exists a; now apply elem_spec|intros (b & H)]. apply elem_spec in H. congruence.
    + split; [easy|intros (b & H)]. apply elem_spec in H. congruence.
  - destruct (elem_at root c) as [[m a]|] eqn:E; [split; [intros _; exists m, a; now apply elem_spec|easy]|]. split; [easy|intros (n & b & H)]. apply elem_spec in H. congruence.
  - easy.
Qed.
Lemma pred_spec p : forall c, is_node c -> (pred_holds root p c = true <-> satisfies root p c).
Proof.
  induction p as [n|n v|a t|p IH|p IHp q IHq|p IHp q IHq]; intros c Hc; cbn.
  - destruct (elem_at root c) as [[m a]|] eqn:E.
    + apply elem_spec in E. split.
      * destruct (dict_get n a) as [v|] eqn:G; [|easy]. intros _. now exists m, a, v.
      * intros (m' & a' & v & H & G). apply elem_spec in H, E. rewrite E in H. injection H as <- <-. now rewrite G.
    + split; [easy|]. intros (m' & a' & v & H & G). apply elem_spec in H. congruence.
  - destruct (elem_at root c) as [[m a]|] eqn:E.
    + apply elem_spec in E. rewrite ostreq_true. split.
      * intros G. now exists m, a.
      * intros (m' & a' & H & G). apply elem_spec in H, E. rewrite E in H. now injection H as <- <-.
    + split; [easy|]. intros (m' & a' & H & G). apply elem_spec in H. congruence.
  - rewrite existsb_exists. split; intros (d & H1 & H2); exists d; (split; [now apply axis_spec|now apply test_spec]).
  - rewrite negb_true_iff, <- IH by exact Hc. destruct (pred_holds root p c); split; congruence.
  - rewrite andb_true_iff, IHp, IHq by exact Hc. reflexivity.
  - rewrite orb_true_iff, IHp, IHq by exact Hc. reflexivity.
Qed.
Lemma step_spec s c d : is_node c -> (In d (step_nodes root s c) <-> on_axis root (st_axis s) c d /\ meets root (st_test s) d /\ forall p, In p (st_preds s) -> satisfies root p d).
Proof.
  intros Hc. unfold step_nodes. rewrite filter_In, axis_spec by exact Hc. rewrite andb_true_iff, test_spec, forallb_forall.
  split; intros (H1 & H2 & H3); repeat split; try assumption; intros p Hp; apply pred_spec; try (now apply H3); eapply axis_is_node; eassumption.
Qed.
Lemma steps_spec ss : forall c d, is_node c -> (In d (steps_nodes root ss c) <-> walk root ss c d).
Proof.
  induction ss as [|s ss IH]; intros c d Hc; cbn [steps_nodes].
  - split; [intros [->|[]]; constructor|intros H; inversion H; now left].
  - rewrite in_flat_map. split.
    + intros (b & H1 & H2). apply step_spec in H1 as (H1 & H3 & H4); [|exact Hc]. econstructor; try eassumption. apply IH; [eapply axis_is_node; eassumption|exact H2].
    + intros H. inversion H as [|s' ss' c' b e H1 H2 H3 H4]; subst. exists b. split; [now apply step_spec|]. apply IH; [eapply axis_is_node; eassumption|exact H4].
Qed.
Lemma walk_is_node ss c d : walk root ss c d -> is_node c -> is_node d.
Proof. intros H. induction H as [c|s ss c d e H1 H2 H3 H4 IH]; intros Hc; [exact Hc|]. apply IH. eapply axis_is_node; eassumption. Qed.
Lemma expr_spec e : forall c d, is_node c -> (In d (expr_nodes root e c) <-> selects root e c d).
Proof.
  assert (N : forall e c d, is_node c -> selects root e c d -> is_node d).
  { induction e0 as [b ss|e0 IH ss|e1 IH1 e2 IH2]; intros c d Hc; cbn [selects].
    - intros H. eapply walk_is_node; [exact H|]. now destruct b.
    - intros (b & H1 & H2). eapply walk_is_node; [exact H2|]. eapply IH; eassumption.
    - intros [H|H]; eauto. }
  induction e as [b ss|e IH ss|e1 IH1 e2 IH2]; intros c d Hc; cbn [expr_nodes selects].
  - apply steps_spec. now destruct b.
  - rewrite in_flat_map. split; intros (b & H1 & H2); exists b.
    + apply IH in H1; [|exact Hc]. split; [exact H1|]. apply steps_spec in H2; [exact H2|]. eapply N; eassumption.
    + split; [now apply IH|]. apply steps_spec; [|exact H2]. eapply N; eassumption.
  - rewrite in_app_iff, IH1, IH2 by exact Hc. reflexivity.
Qed.
(** The elements found are those the expression stands for. *)
Theorem C114_found : forall e p q, xml_at root p <> None ->
  (In q (eval_xpath root e p) <-> selects root e (Some p) (Some q) /\ xml_at root q <> None).
Proof.
  intros e p q Hp. unfold eval_xpath. rewrite filter_In, cmem_spec, all_paths_in, expr_spec by exact Hp. split; intros [H1 H2]; split; assumption.
Qed.
Lemma sorted_filter {A} (R : A -> A -> Prop) (f : A -> bool) l : StronglySorted R l -> StronglySorted R (filter f l).
Proof.
  intros H. induction H as [|x l H IH HF]; [constructor|]. cbn. destruct (f x); [|exact IH]. constructor; [exact IH|].
  rewrite Forall_forall in *. intros y Hy. apply filter_In in Hy as [Hy _]. now apply HF.
Qed.
(** They are found in document order and only once. *)
Theorem C114_order : forall e p, StronglySorted comes_before (eval_xpath root e p).
Proof. intros e p. apply sorted_filter, paths_sorted. Qed.
Lemma sorted_nodup l : StronglySorted comes_before l -> NoDup l.
Proof.
  intros H. induction H as [|x l H IH HF]; constructor; [|exact IH]. intros Hx. rewrite Forall_forall in HF. exact (before_irrefl x (HF x Hx)).
Qed.
Theorem C114_once : forall e p, NoDup (eval_xpath root e p).
Proof. intros e p. apply sorted_nodup, C114_order. Qed.
End Eval.

(* ---------------------------------------------------------------- *)
(** ** Names and attributes along the way *)
(** the elements from below [x] down to the node at [p]: names and attributes; [None] if there is
    another kind of node *)
Definition label := (str * list (str * str))%type.
Fixpoint labels_below (x : xml) (p : npath) : option (list label) :=
  match p with
  | [] => Some []
  | i :: p' => match nth_error (xchildren x) i with
               | Some (Elem n a t cs tl) => option_map (cons (n, a)) (labels_below (Elem n a t cs tl) p')
               | _ => None
               end
  end.
(** from the root element on *)
Definition trail (root : xml) (p : npath) : option (list label) :=
  match root with Elem n a _ _ _ => option_map (cons (n, a)) (labels_below root p) | Misc _ => None end.

(** What steps ask of the elements [m] that follow the elements [b]. *)
Definition test_on (t : xtest) (l : label) : Prop := match t with TName n => fst l = n | _ => True end.
Fixpoint pred_on (p : xpred) (b : list label) (l : label) : Prop :=
  match p with
  | PAttr k => dict_get k (snd l) <> None
  | PAttrIs k v => dict_get k (snd l) = Some v
  | PHas ASelf t => test_on t l
  | PHas AAncestor (TName n) => In n (map fst b)
  | PHas _ _ => False
  | PNot p => ~ pred_on p b l
  | PAnd p q => pred_on p b l /\ pred_on q b l
  | POr p q => pred_on p b l \/ pred_on q b l
  end.
Fixpoint steps_on (ss : list xstep) (b m : list label) : Prop :=
  match ss with
  | [] => m = []
  | s :: ss' =>
      match st_axis s with
      | AChild => exists l m', m = l :: m' /\ test_on (st_test s) l /\ Forall (fun p => pred_on p b l) (st_preds s) /\ steps_on ss' (b ++ [l]) m'
      | ADescend => exists m1 m2, m = m1 ++ m2 /\ steps_on ss' (b ++ m1) m2
      | _ => steps_on ss' b m
      end
  end.
(** expressions about names and attributes of the elements above *)
Fixpoint plain_pred (p : xpred) : bool :=
  match p with
  | PAttr _ | PAttrIs _ _ | PHas ASelf _ | PHas AAncestor (TName _) => true
  | PHas _ _ => false
  | PNot p => plain_pred p
  | PAnd p q | POr p q => plain_pred p && plain_pred q
  end.
Definition plain_step (s : xstep) : bool :=
  match st_axis s, st_test s, st_preds s with
  | AChild, TNode, _ => false
  | AChild, _, ps => forallb plain_pred ps
  | ADescend, TNode, [] | ASelf, TNode, [] => true
  | _, _, _ => false
  end.
(** the last step goes to a child *)
Definition ends_below (ss : list xstep) : bool := match rev ss with s :: _ => match st_axis s with AChild => true | _ => false end | [] => false end.
(** the location paths of an expression *)
Fixpoint branches (e : xexpr) : list (bool * list xstep) :=
  match e with
  | ELoc absolute ss => [(absolute, ss)]
  | EFrom e ss => map (fun b => (fst b, snd b ++ ss)) (branches e)
  | EUnion e f => branches e ++ branches f
  end.
Definition plain_expr (e : xexpr) : bool := forallb (fun b => forallb plain_step (snd b) && ends_below (snd b)) (branches e).

Section Trails.
Variable root : xml.
(** the document as an element above the root element *)
Definition document : xml := Elem [] [] [] [root] [].
Definition path_of (c : cnode) : npath := match c with None => [] | Some p => 0 :: p end.
Lemma doc_at c : xml_at document (path_of c) <> None <-> is_node root c.
Proof. destruct c as [p|]; cbn; easy. Qed.
Lemma path_inj c d : path_of c = path_of d -> c = d.
Proof. destruct c, d; cbn; congruence. Qed.
Lemma path_surj v : xml_at document v <> None -> exists c, v = path_of c /\ is_node root c.
Proof.
  destruct v as [|j p]; [now exists None|]. cbn. intros H. destruct j as [|j]; [now exists (Some p)|]. cbn in H. now destruct j.
Qed.
Lemma child_iff c d : child_of root c d <-> is_node root d /\ exists i, path_of d = path_of c ++ [i].
Proof.
  split.
  - intros [|p i H]; split; try easy; [now exists 0|]. exists i. reflexivity.
  - intros [H (i & E)]. destruct c as [p|], d as [q|]; cbn in E; try discriminate.
    + injection E as ->. now constructor.
    + injection E as E1 E2. subst. constructor.

Qed.
Definition upto (c d : cnode) : Prop := is_node root d /\ exists r, path_of d = path_of c ++ r.
Lemma below_upto c d : is_node root c -> (clos_refl_trans _ (child_of root) c d <-> upto c d).
Proof.
  intros Hc. rewrite below_iff, above_iff by exact Hc. unfold upto. destruct c as [p|], d as [q|]; cbn [path_of].
  - split.
    + intros [[= ->]|(r & _ & -> & H)]; [split; [exact Hc|exists []; now rewrite app_nil_r]|]. split; [exact H|now exists r].
    + intros [H (r & [= ->])]. destruct r as [|i r]; [left; now rewrite app_nil_r|right; now exists (i :: r)].
  - split; [intros [|[]]; discriminate|]. intros [_ (r & E)]. discriminate.
  - split; [intros [|H]; [discriminate|]; split; [exact H|now exists (0 :: q)]|]. intros [H _]. now right.
  - split; [intros _; split; [exact I|now exists []]|now left].
Qed.
Definition labels (c : cnode) : option (list label) := labels_below document (path_of c).
Lemma labels_trail p : labels (Some p) = trail root p.
Proof. unfold labels, trail. cbn. now destruct root. Qed.
Lemma below_app x : forall p r, labels_below x (p ++ r) = match labels_below x p, xml_at x p with
  | Some a, Some y => option_map (app a) (labels_below y r) | _, _ => None end.
Proof.
  intros p. revert x. induction p as [|i p IH]; intros x r; cbn [app labels_below xml_at]; [destruct (labels_below x r); reflexivity|].
  destruct (nth_error (xchildren x) i) as [[n a t cs tl|tl]|]; try reflexivity. rewrite IH.
  destruct (labels_below (Elem n a t cs tl) p) as [b|]; [|reflexivity]. cbn. destruct (xml_at (Elem n a t cs tl) p) as [y|]; [|reflexivity]. destruct (labels_below y r); reflexivity.
Qed.
Lemma below_length x : forall p b, labels_below x p = Some b -> length b = length p.
Proof.
  intros p. revert x. induction p as [|i p IH]; intros x b; cbn; [now intros [= <-]|].
  destruct (nth_error (xchildren x) i) as [[n a t cs tl|tl]|]; try discriminate. destruct (labels_below _ p) as [c|] eqn:E; [|discriminate]. intros [= <-]. cbn. now rewrite (IH _ _ E).
Qed.
Lemma below_node x : forall p b, labels_below x p = Some b -> xml_at x p <> None.
Proof.
  intros p. revert x. induction p as [|i p IH]; intros x b; cbn; [easy|].
  destruct (nth_error (xchildren x) i) as [[n a t cs tl|tl]|]; try discriminate. destruct (labels_below _ p) as [c|] eqn:E; [|discriminate]. intros _. now apply (IH _ c).
Qed.
Lemma upto_labels c d x : upto c d -> labels d = Some x -> exists b m, labels c = Some b /\ x = b ++ m.
Proof.
  intros [_ (r & E)]. unfold labels. rewrite E, below_app. destruct (labels_below document (path_of c)) as [b|]; [|discriminate].
  destruct (xml_at document (path_of c)); [|discriminate]. destruct (labels_below _ r) as [m|]; [|discriminate]. intros [= <-]. now exists b, m.
Qed.
Lemma labels_split c e b m1 m2 : upto c e -> labels c = Some b -> labels e = Some (b ++ m1 ++ m2) -> exists d, upto c d /\ upto d e /\ labels d = Some (b ++ m1).
Proof.
  intros [He (r & E)] Hb Hx. unfold labels in *.
  assert (Hl : length r = length (m1 ++ m2)). { apply below_length in Hb, Hx. rewrite E, !app_length in Hx. rewrite app_length. lia. }
  rewrite <- (firstn_skipn (length m1) r) in E. rewrite app_assoc in E.
  rewrite E, below_app in Hx. destruct (labels_below document (path_of c ++ firstn (length m1) r)) as [x|] eqn:Hd; [|discriminate].
  destruct (path_surj _ (below_node _ _ _ Hd)) as (d & Ed & Hnd). exists d. unfold upto. rewrite <- Ed. repeat split; try assumption; eauto.
  destruct (xml_at document _); [|discriminate]. destruct (labels_below _ (skipn _ r)) as [y|]; [|discriminate]. injection Hx as Hx.
  rewrite Hd. f_equal. apply below_length in Hd. rewrite app_length, firstn_length, Hl, app_length in Hd. apply below_length in Hb. rewrite <- Hb in Hd.
  replace (Nat.min (length m1) (length m1 + length m2)) with (length m1) in Hd by lia. rewrite app_assoc in Hx.
  clear -Hx Hd. rewrite <- app_length in Hd. revert x Hx Hd. generalize (b ++ m1) as z. intros z x. revert z. induction x as [|l x IH]; intros [|k z] Hx Hd; try discriminate; [reflexivity|].
  injection Hx as -> Hx. f_equal. apply IH; [exact Hx|]. now injection Hd.
Qed.
Lemma labels_child c d b : labels c = Some b -> child_of root c d -> forall n a, element root d n a <-> labels d = Some (b ++ [(n, a)]).
Proof.
  intros Hb Hc n a. apply child_iff in Hc as [Hd (i & E)]. unfold labels in *. rewrite E, below_app, Hb.
  assert (H : xml_at document (path_of d) = match d with Some p => xml_at root p | None => Some document end) by now destruct d.
  rewrite E, xml_at_app in H. destruct (xml_at document (path_of c)) as [y|]; [|destruct d; [symmetry in H; contradiction (Hd H)|discriminate]].
  destruct d as [q|]; [|destruct (path_of c); discriminate]. cbn [labels_below xml_at] in *. unfold element. destruct (nth_error (xchildren y) i) as [z|] eqn:Ez.
  - destruct z as [n' a' t cs tl|tl]; cbn.
    + split.
      * intros (p & t' & cs' & tl' & [= <-] & G). rewrite G in H. injection H as -> -> -> -> ->. reflexivity.
      * intros [= G]. apply app_inj_tail in G as [_ G]. injection G as -> ->. now exists q, t, cs, tl.
    + split; [|discriminate]. intros (p & t' & cs' & tl' & [= <-] & G). rewrite G in H. discriminate.
  - symmetry in H. contradiction (Hd H).
Qed.
Lemma labels_last d x : labels d = Some x -> x <> [] -> exists c b n a, child_of root c d /\ labels c = Some b /\ x = b ++ [(n, a)] /\ element root d n a.
Proof.
  intros H Hx. destruct x as [|l x] using rev_ind; [easy|]. clear IHx Hx. destruct l as [n a].
  assert (Hn : is_node root d) by (apply doc_at; eapply below_node; exact H).
  destruct (labels_split None d [] x [(n, a)]) as (c & _ & Hu & Hc); [split; [exact Hn|now exists (path_of d)]|reflexivity|exact H|].
  cbn in Hc. exists c, x, n, a. assert (Hcd : child_of root c d).
  { apply child_iff. split; [exact Hn|]. destruct Hu as [_ (r & E)]. unfold labels in *. apply below_length in H, Hc. rewrite E, !app_length in H. cbn in H. rewrite <- Hc in H. destruct r as [|i [|j r]]; cbn in H; try lia. now exists i. }
  repeat split; try assumption. now apply (labels_child c d x).
Qed.
Lemma ancestors_named d x n : labels d = Some x -> forall b l, x = b ++ [l] -> ((exists c, clos_trans _ (child_of root) c d /\ exists a, element root c n a) <-> In n (map fst b)).
Proof.
  intros H b l E.
  assert (Hn : is_node root d) by (apply doc_at; eapply below_node; exact H). split.
  - intros (c & Hc & a & (p & t & cs & tl & -> & G)).
    assert (Hu : upto (Some p) d). { apply below_upto; [cbn; now rewrite G|]. clear -Hc. induction Hc as [c d H|c d e _ IH1 _ IH2]; [now apply rt_step|eapply rt_trans; eassumption]. }
    destruct (upto_labels _ _ _ Hu H) as (y & m & Hy & E2). destruct m as [|k m].
    + exfalso. destruct Hu as [_ (r & Er)]. unfold labels in *. apply below_length in H, Hy. rewrite E2, app_nil_r in H. rewrite Er, app_length in H.
      destruct r as [|i r]; [|cbn in *; lia]. rewrite app_nil_r in Er. apply path_inj in Er. subst d. apply above_inv in Hc as (r & Hr & E3 & _). apply (f_equal (@length _)) in E3. rewrite app_length in E3. destruct r; [easy|cbn in E3; lia].
    + assert (Ny : y <> []) by (intros ->; apply below_length in Hy; discriminate).
      destruct (labels_last _ _ Hy Ny) as (c & z & n' & a' & _ & _ & -> & (p' & t' & cs' & tl' & [= <-] & G')). rewrite G in G'. injection G' as <- <- _ _ _.
      assert (In (n, a) b). { assert (E4 : x = (z ++ [(n, a)] ++ removelast (k :: m)) ++ [last (k :: m) k]). { rewrite E2, <- !app_assoc. do 2 f_equal. now rewrite <- app_removelast_last. }
        rewrite E4 in E. apply app_inj_tail in E as [<- _]. apply in_or_app. right. now left. }
      now apply (in_map fst) in H0.
  - rewrite in_map_iff. intros ([n' a] & <- & Hin). apply in_split in Hin as (b1 & b2 & ->). subst x.
    destruct (labels_split None d [] (b1 ++ [(n', a)]) (b2 ++ [l])) as (c & _ & Hu & Hc); [split; [exact Hn|now exists (path_of d)]|reflexivity|rewrite H; cbn; f_equal; now rewrite <- !app_assoc|].
    cbn in Hc. exists c. destruct (labels_last _ _ Hc) as (c' & z & n2 & a2 & _ & _ & E & El); [now destruct b1|]. apply app_inj_tail in E as [_ [= <- <-]].
    split; [|now exists a]. assert (Hcn : is_node root c) by (destruct El as (p & t & cs & tl & -> & G); cbn; now rewrite G).
    apply below_upto in Hu; [|exact Hcn]. apply below_iff in Hu as [->|Hu]; [|exact Hu|exact Hcn].
    exfalso. rewrite H in Hc. injection Hc as Hc. apply (f_equal (@length _)) in Hc. rewrite !app_length in Hc. cbn in Hc. lia.
Qed.
Lemma pred_on_spec p : plain_pred p = true -> forall d b n a, labels d = Some (b ++ [(n, a)]) -> (satisfies root p d <-> pred_on p b (n, a)).
Proof.
  assert (El : forall d b n a, labels d = Some (b ++ [(n, a)]) -> element root d n a).
  { intros d b n a H. destruct (labels_last d _ H) as (c & z & n' & a' & _ & _ & E & G); [now destruct b|]. apply app_inj_tail in E as [_ [= -> ->]]. exact G. }
  assert (U : forall d n a n' a', element root d n a -> element root d n' a' -> n' = n /\ a' = a).
  { intros d n a n' a' H1 H2. apply elem_spec in H1, H2. rewrite H1 in H2. now injection H2 as <- <-. }
  induction p as [k|k v|x t|p IH|p IHp q IHq|p IHp q IHq]; intros Hp d b n a H; pose proof (El _ _ _ _ H) as G; cbn [satisfies pred_on].
  - cbn. split; [intros (n' & a' & v & H1 & H2); destruct (U _ _ _ _ _ G H1) as [-> ->]; congruence|]. intros H1. destruct (dict_get k a) as [v|] eqn:E; [|easy]. now exists n, a, v.
  - cbn. split; [intros (n' & a' & H1 & H2); now destruct (U _ _ _ _ _ G H1) as [-> ->]|]. intros H1. now exists n, a.
  - destruct x; cbn in Hp; try discriminate.
    + cbn [on_axis]. split.
      * intros (e & -> & H1). destruct t as [m| |]; cbn in *; try exact I. destruct H1 as (a' & H1). now destruct (U _ _ _ _ _ G H1) as [-> _].
      * intros H1. exists d. split; [reflexivity|]. destruct t as [m| |]; cbn in *; [|now exists n, a|exact I]. subst m. now exists a.
    + destruct t as [m| |]; try discriminate. cbn [on_axis meets]. now apply (ancestors_named d (b ++ [(n, a)]) m H b (n, a)).
  - rewrite (IH Hp d b n a H). reflexivity.
  - apply andb_prop in Hp as [H1 H2]. rewrite (IHp H1 d b n a H), (IHq H2 d b n a H). reflexivity.
  - apply andb_prop in Hp as [H1 H2]. rewrite (IHp H1 d b n a H), (IHq H2 d b n a H). reflexivity.
Qed.
Lemma upto_trans c d e : upto c d -> upto d e -> upto c e.
Proof. intros [_ (r & E)] [H (r' & E')]. split; [exact H|]. exists (r ++ r'). now rewrite E', E, app_assoc. Qed.
Lemma child_upto c d : child_of root c d -> upto c d.
Proof. intros H. apply child_iff in H as [H (i & E)]. split; [exact H|now exists [i]]. Qed.
Lemma upto_node c d : upto c d -> is_node root c.
Proof. intros [H (r & E)]. apply doc_at. apply doc_at in H. rewrite E, xml_at_app in H. now destruct (xml_at document (path_of c)). Qed.
Lemma upto_refl c : is_node root c -> upto c c.
Proof. intros H. split; [exact H|]. exists []. now rewrite app_nil_r. Qed.
Lemma walk_upto ss c e : forallb plain_step ss = true -> walk root ss c e -> is_node root c -> upto c e.
Proof.
  intros Hs H. induction H as [c|s ss c d e H1 H2 H3 H4 IH]; intros Hc; [now apply upto_refl|].
  cbn in Hs. apply andb_prop in Hs as [Hs1 Hs2]. unfold plain_step in Hs1. destruct (st_axis s); cbn [on_axis] in H1.
  - eapply upto_trans; [apply child_upto; exact H1|]. apply IH; [exact Hs2|]. eapply child_is_node; exact H1.
  - subst d. now apply IH.
  - discriminate.
  - apply below_upto in H1; [|exact Hc]. eapply upto_trans; [exact H1|]. apply IH; [exact Hs2|]. now destruct H1.
Qed.
Lemma walk_labels ss : forallb plain_step ss = true -> forall c e b x, labels c = Some b -> labels e = Some x ->
  (walk root ss c e <-> upto c e /\ exists m, x = b ++ m /\ steps_on ss b m).
Proof.
  induction ss as [|s ss IH]; intros Hs c e b x Hb Hx.
  - cbn [steps_on]. assert (Hc : is_node root c) by (apply doc_at; eapply below_node; exact Hb). split.
    + intros H. inversion H; subst. split; [now apply upto_refl|]. exists []. rewrite app_nil_r. split; [congruence|reflexivity].
    + intros [[_ (r & E)] (m & -> & ->)]. rewrite app_nil_r in Hx. unfold labels in *. apply below_length in Hb, Hx. rewrite E, app_length in Hx. destruct r as [|i r]; [|cbn in Hx; lia].
      rewrite app_nil_r in E. apply path_inj in E. subst. constructor.
  - cbn in Hs. apply andb_prop in Hs as [Hs1 Hs2]. assert (Hc : is_node root c) by (apply doc_at; eapply below_node; exact Hb). specialize (IH Hs2).
    unfold plain_step in Hs1. cbn [steps_on]. destruct (st_axis s) eqn:Ea; try discriminate.
    + assert (Ht : forall l : label, exists n a, l = (n, a)) by (intros [n a]; eauto). assert (Hps : forallb plain_pred (st_preds s) = true) by (now destruct (st_test s)). rewrite forallb_forall in Hps. split.
      * intros H. inversion H as [|s' ss' c' d e' H1 H2 H3 H4]; subst. rewrite Ea in H1. cbn in H1.
        assert (exists n a, element root d n a /\ test_on (st_test s) (n, a)) as (n & a & G & T).
        { clear -H2 Hs1. destruct (st_test s) as [n| |]; cbn in H2; [destruct H2 as (a & G); now exists n, a|destruct H2 as (n & a & G); now exists n, a|discriminate]. }
        pose proof (proj1 (labels_child c d b Hb H1 n a) G) as Hd. destruct (proj1 (IH d e _ x Hd Hx) H4) as [Hu (m & Em & Hm)]. subst x.
        split; [eapply upto_trans; [apply child_upto; exact H1|exact Hu]|]. exists ((n, a) :: m). split; [now rewrite <- app_assoc|]. exists (n, a), m.
        split; [reflexivity|]. split; [exact T|]. split; [|exact Hm]. rewrite Forall_forall. intros p Hp. apply (pred_on_spec p (Hps p Hp) d b n a Hd). now apply H3.
      * intros [Hu (m & -> & l & m' & -> & T & P & M)]. destruct (Ht l) as (n & a & ->).
        destruct (labels_split c e b [(n, a)] m' Hu Hb Hx) as (d & Hcd & Hde & Hd).
        assert (Hch : child_of root c d). { apply child_iff. destruct Hcd as [Hn (r & E)]. split; [exact Hn|]. unfold labels in *. apply below_length in Hb, Hd. rewrite E, !app_length in Hd. cbn in Hd. destruct r as [|i [|j r]]; cbn in Hd; try lia. now exists i. }
        pose proof (proj2 (labels_child c d b Hb Hch n a) Hd) as G. apply (walk_step _ s ss c d e).
        -- now rewrite Ea.
        -- destruct (st_test s) as [k| |]; cbn in *; [subst k; now exists a|now exists n, a|exact I].
        -- intros p Hp. apply (pred_on_spec p (Hps p Hp) d b n a Hd). rewrite Forall_forall in P. now apply P.
        -- apply (IH d e _ _ Hd Hx). split; [exact Hde|]. exists m'. split; [now rewrite <- app_assoc|exact M].
    + destruct (st_test s) eqn:Et; try discriminate. destruct (st_preds s) eqn:Ep; try discriminate. rewrite <- (IH c e b x Hb Hx). split.
      * intros H. inversion H as [|s' ss' c' d e' H1 H2 H3 H4]; subst. rewrite Ea in H1. cbn in H1. now subst d.
      * intros H. apply (walk_step _ s ss c c e); [now rewrite Ea|now rewrite Et|now rewrite Ep|exact H].
    + destruct (st_test s) eqn:Et; try discriminate. destruct (st_preds s) eqn:Ep; try discriminate. split.
      * intros H. inversion H as [|s' ss' c' d e' H1 H2 H3 H4]; subst. rewrite Ea in H1. cbn [on_axis] in H1. apply below_upto in H1; [|exact Hc].
        pose proof (walk_upto _ _ _ Hs2 H4 (proj1 H1)) as Hde. destruct (upto_labels _ _ _ Hde Hx) as (y & m & Hy & ->).
        destruct (upto_labels _ _ _ H1 Hy) as (b' & m1 & Hb' & ->). rewrite Hb in Hb'. injection Hb' as <-.
        apply (IH d e _ _ Hy Hx) in H4 as [_ (m2 & E & Hm)]. apply app_inv_head in E. subst m2. split; [eapply upto_trans; eassumption|]. exists (m1 ++ m). split; [now rewrite app_assoc|]. now exists m1, m.
      * intros [Hu (m & -> & m1 & m2 & -> & Hm)]. destruct (labels_split c e b m1 m2 Hu Hb Hx) as (d & Hcd & Hde & Hd).
        apply (walk_step _ s ss c d e); [rewrite Ea; now apply below_upto|now rewrite Et|now rewrite Ep|]. apply (IH d e _ _ Hd Hx). split; [exact Hde|]. exists m2. split; [now rewrite app_assoc|exact Hm].
Qed.
Lemma walk_app ss tt c e : walk root (ss ++ tt) c e <-> exists d, walk root ss c d /\ walk root tt d e.
Proof.
  split.
  - revert c. induction ss as [|s ss IH]; intros c; cbn [app].
    + intros H. exists c. split; [constructor|exact H].
    + intros H. inversion H as [|s' ss' c' d e' H1 H2 H3 H4]; subst. apply IH in H4 as (d' & H4 & H5). exists d'. split; [|exact H5]. econstructor; eassumption.
  - intros (d & H1 & H2). induction H1 as [c|s ss c d' d G1 G2 G3 G4 IH]; [exact H2|]. cbn. econstructor; try eassumption. now apply IH.
Qed.
Lemma branches_spec e c d : selects root e c d <-> exists b, In b (branches e) /\ walk root (snd b) (if fst b then None else c) d.
Proof.
  revert d. induction e as [a ss|e IH ss|e1 IH1 e2 IH2]; intros d; cbn [selects branches].
  - split; [intros H; exists (a, ss); split; [now left|exact H]|]. intros (b & [<-|[]] & H). exact H.
  - split.
    + intros (c' & H1 & H2). apply IH in H1 as (b & Hb & H1). exists (fst b, snd b ++ ss). split; [now apply (in_map (fun b => (fst b, snd b ++ ss)))|]. cbn. apply walk_app. eauto.
    + intros (b & Hb & H). apply in_map_iff in Hb as (b' & <- & Hb). cbn in H. apply walk_app in H as (c' & H1 & H2). exists c'. split; [|exact H2]. apply IH. eauto.
  - rewrite IH1, IH2. split.
    + intros [(b & Hb & H)|(b & Hb & H)]; exists b; (split; [apply in_or_app|exact H]); auto.
    + intros (b & Hb & H). apply in_app_or in Hb as [Hb|Hb]; [left|right]; eauto.
Qed.
Lemma ends_element ss c d : forallb plain_step ss = true -> ends_below ss = true -> walk root ss c d -> exists n a, element root d n a.
Proof.
  destruct ss as [|s ss] using rev_ind; [discriminate|]. clear IHss. unfold ends_below. rewrite rev_app_distr. cbn. rewrite forallb_app. intros Hp He H.
  apply andb_prop in Hp as [_ Hp]. cbn in Hp. apply andb_prop in Hp as [Hp _]. apply walk_app in H as (b & _ & H). inversion H as [|s' ss' c' d' e' H1 H2 H3 H4]; subst. inversion H4; subst.
  unfold plain_step in Hp. destruct (st_axis s); try discriminate. destruct (st_test s) as [n| |]; cbn in H2; [destruct H2 as (a & H2); now exists n, a|exact H2|discriminate].
Qed.
Lemma trail_node p x : trail root p = Some x -> xml_at root p <> None.
Proof. rewrite <- labels_trail. unfold labels. intros H. apply below_node in H. exact H. Qed.
(** An element is found if the names and attributes of the elements from the root element down to
    it are as the expression says. *)
Theorem C114_trail : forall e p q b, plain_expr e = true -> trail root p = Some b ->
  (In q (eval_xpath root e p) <-> exists x ss absolute, trail root q = Some x /\ In (absolute, ss) (branches e) /\
     if absolute : bool then steps_on ss [] x else (exists r, q = p ++ r) /\ exists m, x = b ++ m /\ steps_on ss b m).
Proof.
  intros e p q b Hpl Hp. assert (Hn : xml_at root p <> None) by (eapply trail_node; exact Hp). rewrite (C114_found root e p q Hn).
  unfold plain_expr in Hpl. rewrite forallb_forall in Hpl. rewrite branches_spec. split.
  - intros [([a ss] & Hin & H) Hq]. cbn in H. specialize (Hpl _ Hin). cbn in Hpl. apply andb_prop in Hpl as [H1 H2].
    set (c := if a then None else Some p) in *.
    assert (Hc : is_node root c) by (unfold c; now destruct a). pose proof (walk_upto _ _ _ H1 H Hc) as Hu.
    assert (exists x, trail root q = Some x) as (x & Hx).
    { destruct (ends_element _ _ _ H1 H2 H) as (n & at' & (q' & t & cs & tl & [= <-] & G)). rewrite <- labels_trail. unfold labels.
      assert (Gd : xml_at document (path_of (Some q)) = Some (Elem n at' t cs tl)) by exact G. clear -Gd. revert Gd. generalize (path_of (Some q)) document. intros v. induction v as [|i v IH]; intros y Gd; [now exists []|].
      cbn in *. destruct (nth_error (xchildren y) i) as [z|]; [|discriminate]. destruct z as [n' a' t' cs' tl'|tl'].
      - destruct (IH _ Gd) as (x & ->). cbn. eauto.
      - destruct v as [|j v]; [discriminate|]. cbn in Gd. destruct j; discriminate. }
    exists x, ss, a. split; [exact Hx|]. split; [exact Hin|]. destruct a.
    + apply (walk_labels ss H1 c (Some q) [] x eq_refl) in H as (_ & m & -> & H); [exact H|]. now rewrite labels_trail.
    + apply (walk_labels ss H1 c (Some q) b x) in H as ((_ & (r & E)) & m & -> & H); [|unfold c; now rewrite labels_trail|now rewrite labels_trail].
      split; [exists r; cbn in E; now injection E|]. now exists m.
  - intros (x & ss & a & Hx & Hin & H). split; [|eapply trail_node; exact Hx]. exists (a, ss). split; [exact Hin|]. cbn. specialize (Hpl _ Hin). cbn in Hpl. apply andb_prop in Hpl as [H1 H2].
    assert (Hq : is_node root (Some q)) by (cbn; eapply trail_node; exact Hx). destruct a.
    + apply (walk_labels ss H1 None (Some q) [] x eq_refl); [now rewrite labels_trail|]. split; [split; [exact Hq|now exists (0 :: q)]|]. now exists x.
    + destruct H as ((r & ->) & m & -> & H). apply (walk_labels ss H1 (Some p) (Some (p ++ r)) b (b ++ m)); [now rewrite labels_trail|now rewrite labels_trail|].
      split; [split; [exact Hq|now exists r]|]. now exists m.
Qed.
End Trails.

(* ---------------------------------------------------------------- *)
(** ** Examples *)
Open Scope string_scope.
Open Scope list_scope.
Open Scope nat_scope.
Definition ex_doc : xml :=
  Elem (u "article") [] []
    [Elem (u "sec") [(u "id", u "s1")] [] [Elem (u "p") [] [] [] []; Misc []; Elem (u "sec") [] [] [Elem (u "p") [] [] [] []] []] [];
     Elem (u "ack") [] [] [Elem (u "p") [(u "id", u "s1")] [] [] []; Elem (u "sec") [] [] [Elem (u "p") [] [] [] []] []] []] [].
Definition ex_eval (p : npath) (s : string) := xpath_at ex_doc p (u s).
Example C114_ex_union : ex_eval [] "(//sec | //ack)/p" = Ok [[0; 0]; [0; 2; 0]; [1; 0]; [1; 1; 0]].
Proof. vm_compute. reflexivity. Qed.
Example C114_ex_not : ex_eval [] "//sec[not(ancestor::ack)]/p" = Ok [[0; 0]; [0; 2; 0]].
Proof. vm_compute. reflexivity. Qed.
Example C114_ex_attr : ex_eval [] "sec[@id='s1' or not(@id)]/*[not(self::p)]" = Ok [[0; 2]] /\ ex_eval [0] "/article/ack/p[@id=""s1""]" = Ok [[1; 0]] /\ ex_eval [0] ".//p" = Ok [[0; 0]; [0; 2; 0]].
Proof. vm_compute. auto. Qed.
Example C114_ex_trail : forall e, parse_xpath (u "//sec[not(ancestor::ack)]/p") = Some e -> plain_expr e = true /\ trail ex_doc [] = Some [(u "article", [])].
Proof. intros e. vm_compute. intros [= <-]. split; reflexivity. Qed.
(** not one of the expressions of the model *)
Example C114_ex_wrong : ex_eval [] "sec[" = Err RuntimeError.
Proof. reflexivity. Qed.
Print Assumptions C114_found.
Print Assumptions C114_order.
Print Assumptions C114_once.
Print Assumptions C114_trail.
