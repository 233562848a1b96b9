(** C115, C116: what the expressions of config/xml-mapping.conf find in a document. *)
From Verif Require Import Base ModelJatsText ModelWordMatch ModelXml ModelTarget ModelTargets ModelXPath ModelMapping ModelCommands ModelArgs PropTargets PropNames PropIni PropXPath PropShipped.
Require Import Lia.
Import ListNotations.
Open Scope list_scope.
Open Scope nat_scope.

(* ---------------------------------------------------------------- *)
(** ** Specification *)
(** [x]: the elements from the root element to an element, names and attributes *)
Definition names (x : list label) : list str := map fst x.
Definition us (l : list string) : list str := map u l.
(** an element at exactly this path below the root element *)
Definition at_path (l : list string) (x : list label) : Prop := exists r, names x = r :: us l.
(** ... at this path somewhere below the child [n] of the root element *)
Definition within (n : string) (l : list string) (x : list label) : Prop := exists r m, names x = r :: u n :: m ++ us l.
(** ... at this path anywhere *)
Definition anywhere (l : list string) (x : list label) : Prop := exists m, names x = m ++ us l.
(** ... at this path somewhere below an element [n] *)
Definition below_any (n : string) (l : list string) (x : list label) : Prop := exists m1 m2, names x = m1 ++ u n :: m2 ++ us l.
(** its attribute [k] is [v] *)
Definition with_attr (k v : string) (x : list label) : Prop := exists y n a, x = y ++ [(n, a)] /\ dict_get (u k) a = Some (u v).
Definition one_of (l : list (list label -> Prop)) (x : list label) : Prop := Exists (fun c => c x) l.
Definition both (c d : list label -> Prop) (x : list label) : Prop := c x /\ d x.
(** not inside of an element [n] (and not one itself) *)
Definition outside (n : string) (x : list label) : Prop := ~ In (u n) (names x).
(** a name of a contributor that is an author, or of no type *)
Definition author_name (x : list label) : Prop :=
  exists r ar a1 a2 a3 a n, x = [(r, ar); (u "front", a1); (u "article-meta", a2); (u "contrib-group", a3); (u "contrib", a); (u "name", n)] /\
    (dict_get (u "contrib-type") a = None \/ dict_get (u "contrib-type") a = Some (u "author")).
Definition author_note (x : list label) : Prop := exists n r, names x = r :: us ["front"; "article-meta"; "author-notes"]%string ++ [n].

Open Scope string_scope.
Definition field_paths : list (string * (list label -> Prop)) :=
  [("title", at_path ["front"; "article-meta"; "title-group"; "article-title"]);
   ("abstract", at_path ["front"; "article-meta"; "abstract"]);
   ("journal", at_path ["front"; "journal-meta"; "journal-title-group"; "journal-title"]);
   ("issn", both (at_path ["front"; "journal-meta"; "issn"]) (with_attr "pub-id-type" "epub"));
   ("doi", both (at_path ["front"; "article-meta"; "article-id"]) (with_attr "pub-id-type" "doi"));
   ("copyright_statement", at_path ["front"; "article-meta"; "permissions"; "copyright-statement"]);
   ("keywords_title", at_path ["front"; "article-meta"; "kwd-group"; "title"]);
   ("keywords", at_path ["front"; "article-meta"; "kwd-group"]);
   ("manuscript_type", both (at_path ["front"; "article-meta"; "article-categories"; "subj-group"; "subject"]) (with_attr "subj-group-type" "display-channel"));
   ("author_notes", author_note);
   ("author", author_name);
   ("author_aff", one_of [at_path ["front"; "article-meta"; "contrib-group"; "aff"]; at_path ["front"; "article-meta"; "contrib-group"; "contrib"; "aff"];
                          at_path ["front"; "article-meta"; "aff"]]);
   ("email", one_of [at_path ["front"; "article-meta"; "contrib-group"; "aff"; "email"]; at_path ["front"; "article-meta"; "contrib-group"; "contrib"; "aff"; "email"];
                     at_path ["front"; "article-meta"; "aff"; "email"]]);
   ("section_title", one_of [within "body" ["sec"]; within "back" ["sec"]; within "back" ["ack"]]);
   ("section_paragraph", one_of [anywhere ["sec"; "p"]; anywhere ["ack"; "p"]; at_path ["body"; "p"]]);
   ("body_section_title", within "body" ["sec"; "title"]);
   ("back_section_title", both (within "back" ["sec"; "title"]) (outside "ack"));
   ("body_section_paragraph", within "body" ["p"]);
   ("back_section_paragraph", both (outside "ack") (one_of [within "back" ["sec"; "p"]; both (within "back" ["p"]) (outside "sec")]));
   ("acknowledgment_section_title", below_any "ack" ["title"]);
   ("acknowledgment_section_paragraph", below_any "ack" ["p"]);
   ("boxed_text_title", anywhere ["boxed-text"]);
   ("boxed_text_paragraph", below_any "boxed-text" ["p"]);
   ("list", anywhere ["list"]);
   ("list_item", anywhere ["list-item"]);
   ("appendix_group_title", anywhere ["app-group"; "title"]);
   ("appendix", anywhere ["app"]);
   ("figure", anywhere ["fig"]);
   ("body_figure", within "body" ["fig"]);
   ("back_figure", within "back" ["fig"]);
   ("table", anywhere ["table-wrap"]);
   ("body_table", within "body" ["table-wrap"]);
   ("back_table", within "back" ["table-wrap"]);
   ("reference_list_title", at_path ["back"; "ref-list"; "title"]);
   ("reference", at_path ["back"; "ref-list"; "ref"]);
   ("page_no", at_path ["front"; "article-meta"])].
Close Scope string_scope.

(* ---------------------------------------------------------------- *)
(** ** Proofs *)
Definition child (n : string) : xstep := mkStep AChild (TName (u n)) [].
Definition child_if (n : string) (ps : list xpred) : xstep := mkStep AChild (TName (u n)) ps.
Lemma steps_children l : forall b m, steps_on (map child l) b m <-> names m = us l.
Proof.
  induction l as [|n l IH]; intros b m; cbn [map steps_on us names].
  - split; [now intros ->|]. now destruct m.
  - cbn [st_axis child]. split.
    + intros ([k a] & m' & -> & H1 & _ & H2). cbn in H1. apply IH in H2. unfold names in *. cbn. now rewrite H1, H2.
    + intros H. destruct m as [|[k a] m]; [discriminate|]. cbn in H. injection H as H1 H2. exists (k, a), m. repeat split; [exact H1|constructor|]. now apply IH.
Qed.
Lemma steps_app ss : forall tt b m, steps_on (ss ++ tt) b m <-> exists m1 m2, m = m1 ++ m2 /\ steps_on ss b m1 /\ steps_on tt (b ++ m1) m2.
Proof.
  induction ss as [|s ss IH]; intros tt b m; cbn [app steps_on].
  - split; [intros H; exists [], m; rewrite app_nil_r; auto|]. intros (m1 & m2 & -> & -> & H). now rewrite app_nil_r in H.
  - destruct (st_axis s).
    + split.
      * intros (l & m' & -> & H1 & H2 & H). apply IH in H as (m1 & m2 & -> & H3 & H4). exists (l :: m1), m2. split; [reflexivity|]. rewrite <- app_assoc in H4. split; [|exact H4]. now exists l, m1.
      * intros (m1 & m2 & -> & (l & m' & -> & H1 & H2 & H) & H4). exists l, (m' ++ m2). repeat split; try assumption. apply IH. exists m', m2. rewrite <- app_assoc. auto.
    + apply IH.
    + apply IH.
    + split.
      * intros (m1 & m2 & -> & H). apply IH in H as (m3 & m4 & -> & H3 & H4). exists (m1 ++ m3), m4. rewrite <- app_assoc in *. split; [reflexivity|]. split; [|exact H4]. now exists m1, m3.
      * intros (m3 & m4 & -> & (m1 & m2 & -> & H3) & H4). exists m1, (m2 ++ m4). rewrite app_assoc. split; [reflexivity|]. apply IH. exists m2, m4. rewrite <- app_assoc. auto.
Qed.
Lemma steps_slashes ss b m : steps_on (slashes :: ss) b m <-> exists m1 m2, m = m1 ++ m2 /\ steps_on ss (b ++ m1) m2.
Proof. reflexivity. Qed.
Lemma names_app x y : names (x ++ y) = names x ++ names y.
Proof. apply map_app. Qed.
(** the elements that a location path finds from the root element *)
Definition finds (br : bool * list xstep) (x : list label) : Prop :=
  if fst br then steps_on (snd br) [] x else exists r m, x = r :: m /\ steps_on (snd br) [r] m.
Lemma finds_path l x : finds (false, map child l) x <-> at_path l x.
Proof.
  unfold finds, at_path. cbn [fst snd]. split.
  - intros (r & m & -> & H). apply steps_children in H. exists (fst r). cbn. now rewrite <- H.
  - intros (r & H). destruct x as [|[k a] x]; [discriminate|]. cbn in H. injection H as -> H. exists (r, a), x. split; [reflexivity|]. now apply steps_children.
Qed.
Lemma finds_anywhere l x : finds (true, slashes :: map child l) x <-> anywhere l x.
Proof.
  unfold finds, anywhere. cbn [fst snd]. rewrite steps_slashes. split.
  - intros (m1 & m2 & -> & H). apply steps_children in H. exists (names m1). now rewrite names_app, H.
  - intros (m & H). apply map_eq_app in H as (m1 & m2 & -> & <- & H). exists m1, m2. split; [reflexivity|]. now apply steps_children.
Qed.
Lemma finds_within n l x : finds (false, child n :: slashes :: map child l) x <-> within n l x.
Proof.
  unfold finds, within. cbn [fst snd]. split.
  - intros (r & m & -> & ([k a] & m' & -> & H1 & _ & H)). cbn in H1. apply steps_slashes in H as (m1 & m2 & -> & H). apply steps_children in H. subst k.
    exists (fst r), (names m1). cbn. now rewrite map_app, <- H.
  - intros (r & m & H). destruct x as [|[k a] [|[k2 a2] x]]; try discriminate. cbn in H. injection H as -> -> H. apply map_eq_app in H as (m1 & m2 & -> & <- & H).
    exists (r, a), ((u n, a2) :: m1 ++ m2). split; [reflexivity|]. exists (u n, a2), (m1 ++ m2). repeat split; [constructor|]. apply steps_slashes. exists m1, m2. split; [reflexivity|]. now apply steps_children.
Qed.
Lemma finds_below n l x : finds (true, slashes :: child n :: slashes :: map child l) x <-> below_any n l x.
Proof.
  unfold finds, below_any. cbn [fst snd]. rewrite steps_slashes. split.
  - intros (m1 & m2 & -> & ([k a] & m' & -> & H1 & _ & H)). cbn in H1. apply steps_slashes in H as (m3 & m4 & -> & H). apply steps_children in H. subst k.
    exists (names m1), (names m3). rewrite names_app. cbn. now rewrite map_app, <- H.
  - intros (m1 & m2 & H). apply map_eq_app in H as (x1 & y & -> & <- & H). destruct y as [|[k a] y]; [discriminate|]. cbn in H. injection H as -> H. apply map_eq_app in H as (x2 & x3 & -> & <- & H).
    exists x1, ((u n, a) :: x2 ++ x3). split; [reflexivity|]. exists (u n, a), (x2 ++ x3). repeat split; [constructor|]. apply steps_slashes. exists x2, x3. split; [reflexivity|]. now apply steps_children.
Qed.
(** one more step *)
Lemma finds_snoc ab ss s x : finds (ab, ss ++ [s]) x -> st_axis s = AChild -> exists y l, x = y ++ [l] /\ finds (ab, ss) y /\ test_on (st_test s) l /\ Forall (fun p => pred_on p y l) (st_preds s).
Proof.
  unfold finds. cbn [fst snd]. intros H E. destruct ab.
  - apply steps_app in H as (m1 & m2 & -> & H1 & H2). cbn [steps_on] in H2. rewrite E in H2. destruct H2 as (l & m' & -> & T & P & ->). now exists m1, l.
  - destruct H as (r & m & -> & H). apply steps_app in H as (m1 & m2 & -> & H1 & H2). cbn [steps_on] in H2. rewrite E in H2. destruct H2 as (l & m' & -> & T & P & ->). exists (r :: m1), l. split; [reflexivity|]. split; [now exists r, m1|]. now split.
Qed.
Lemma finds_snoc_iff ab ss s x : st_axis s = AChild ->
  (finds (ab, ss ++ [s]) x <-> exists y l, x = y ++ [l] /\ finds (ab, ss) y /\ test_on (st_test s) l /\ Forall (fun p => pred_on p y l) (st_preds s)).
Proof.
  intros E. split; [intros H; now apply finds_snoc|]. unfold finds. cbn [fst snd]. intros (y & l & -> & H & T & P). destruct ab.
  - apply steps_app. exists y, [l]. split; [reflexivity|]. split; [exact H|]. cbn [steps_on]. rewrite E. now exists l, [].
  - destruct H as (r & m & -> & H). exists r, (m ++ [l]). split; [reflexivity|]. apply steps_app. exists m, [l]. split; [reflexivity|]. split; [exact H|]. cbn [steps_on]. rewrite E. now exists l, [].
Qed.


(** The expressions of a field *)
Fixpoint parse_all (l : list str) : option (list xexpr) :=
  match l with
  | [] => Some []
  | s :: l' => match parse_xpath s, parse_all l' with Some e, Some es => Some (e :: es) | _, _ => None end
  end.
Definition expressions (s : ostr) : option (list xexpr) := parse_all (parse_xpaths ascii_space s).
Lemma lstrip_usual sp s : usual_space sp -> ascii_text s = true -> lstrip sp s = lstrip ascii_space s.
Proof. intros H. induction s as [|c s IH]; [reflexivity|]. cbn. intros E. apply andb_prop in E as [E1 E2]. apply N.ltb_lt in E1. rewrite (H c E1). destruct (ascii_space c); [now apply IH|reflexivity]. Qed.
Lemma lstrip_ascii sp s : ascii_text s = true -> ascii_text (lstrip sp s) = true.
Proof. induction s as [|c s IH]; [reflexivity|]. cbn. intros E. destruct (sp c); [|exact E]. apply andb_prop in E as [_ E]. now apply IH. Qed.
Lemma rev_ascii s : ascii_text s = true -> ascii_text (rev s) = true.
Proof. unfold ascii_text. rewrite !forallb_forall. intros H c Hc. apply H. now apply in_rev. Qed.
Lemma strip_usual sp s : usual_space sp -> ascii_text s = true -> strip sp s = strip ascii_space s.
Proof. intros H E. unfold strip. rewrite (lstrip_usual sp s H E), (lstrip_usual sp _ H); [reflexivity|]. now apply rev_ascii, lstrip_ascii. Qed.
Lemma strip_ascii sp s : ascii_text s = true -> ascii_text (strip sp s) = true.
Proof. intros H. unfold strip. now apply rev_ascii, lstrip_ascii, rev_ascii, lstrip_ascii. Qed.
Lemma split_on_ascii c s : ascii_text s = true -> Forall (fun p => ascii_text p = true) (split_on c s).
Proof.
  induction s as [|x s IH]; cbn [split_on]; [now repeat constructor|]. cbn. intros E. apply andb_prop in E as [E1 E2]. specialize (IH E2). destruct (N.eqb x c); [now constructor|].
  destruct (split_on c s) as [|p ps]; [repeat constructor; cbn; now rewrite E1|]. inversion IH. constructor; [cbn; rewrite E1; assumption|assumption].
Qed.
Lemma xpaths_usual sp s : usual_space sp -> (forall v, s = Some v -> ascii_text v = true) -> parse_xpaths sp s = parse_xpaths ascii_space s.
Proof.
  intros H E. unfold parse_xpaths. destruct s as [[|c v]|]; [reflexivity| |reflexivity]. specialize (E _ eq_refl). rewrite (strip_usual sp _ H E). apply map_ext_in. intros x Hx. apply strip_usual; [exact H|].
  pose proof (split_on_ascii ch_lf _ (strip_ascii ascii_space _ E)) as F. rewrite Forall_forall in F. now apply F.
Qed.
Lemma article_ascii k v : dict_get k article = Some v -> ascii_text v = true.
Proof. intros H. apply dict_get_In in H. assert (E : forallb (fun kv => ascii_text (snd kv)) article = true) by (vm_compute; reflexivity). rewrite forallb_forall in E. exact (E _ H). Qed.

Lemma nodup_app {A} (a b : list A) : NoDup a -> NoDup b -> (forall x, In x a -> ~ In x b) -> NoDup (a ++ b).
Proof.
  intros Ha Hb. induction Ha as [|x a Hx Ha IH]; intros D; [exact Hb|]. cbn. constructor; [|apply IH; intros y Hy; apply D; now right].
  rewrite in_app_iff. intros [H|H]; [easy|]. exact (D x (or_introl eq_refl) H).
Qed.
Section Found.
Variable root : xml.
Lemma all_found p : forall xs es, parse_all xs = Some es -> all_xpaths (xpath_at root) p xs = Ok (flat_map (fun e => eval_xpath root e p) es).
Proof.
  unfold all_xpaths. induction xs as [|x xs IH]; intros es; cbn [parse_all mapM]; [now intros [= <-]|]. unfold xpath_at at 1. destruct (parse_xpath x) as [e|]; [|discriminate]. destruct (parse_all xs) as [es'|]; [|discriminate].
  intros [= <-]. specialize (IH es' eq_refl). cbn [bind]. destruct (mapM (xpath_at root p) xs) as [ls|]; [|discriminate]. cbn [bind] in *. injection IH as IH. cbn. now rewrite IH.
Qed.
Hypothesis Hroot : exists n a t cs tl, root = Elem n a t cs tl.
Lemma root_trail : exists r, trail root [] = Some [r].
Proof. destruct Hroot as (n & a & t & cs & tl & ->). now exists (n, a). Qed.
Lemma trail_head q x r : trail root [] = Some [r] -> trail root q = Some x -> exists m, x = r :: m.
Proof. destruct Hroot as (n & a & t & cs & tl & ->). cbn. intros [= <-]. destruct (labels_below _ q) as [m|]; [|discriminate]. intros [= <-]. now exists m. Qed.
(** from the root element *)
Lemma eval_finds e q : plain_expr e = true -> (In q (eval_xpath root e []) <-> exists x, trail root q = Some x /\ Exists (fun br => finds br x) (branches e)).
Proof.
  intros He. destruct root_trail as (r & Hr). rewrite (C114_trail root e [] q [r] He Hr). setoid_rewrite Exists_exists. split.
  - intros (x & ss & ab & Hx & Hin & H). exists x. split; [exact Hx|]. exists (ab, ss). split; [exact Hin|]. unfold finds. cbn [fst snd]. destruct ab; [exact H|]. destruct H as (_ & m & -> & H). now exists r, m.
  - intros (x & Hx & [ab ss] & Hin & H). exists x, ss, ab. split; [exact Hx|]. split; [exact Hin|]. unfold finds in H. cbn [fst snd] in H. destruct ab; [exact H|]. destruct H as (r' & m & -> & H).
    split; [now exists q|]. destruct (trail_head q _ r Hr Hx) as (m' & [= -> ->]). now exists m'.
Qed.
End Found.

(** the location paths in the lines of a field *)
Definition field_lines (s : ostr) : option (list (list (bool * list xstep))) := option_map (map branches) (expressions s).
Definition row (k : string) (c : list label -> Prop) : Prop := exists lines,
  field_lines (dict_get (u k) article) = Some lines /\
  forallb (forallb (fun b => forallb plain_step (snd b) && ends_below (snd b))) lines = true /\
  (forall x, Exists (Exists (fun br => finds br x)) lines <-> c x) /\
  (forall i j a b x, nth_error lines i = Some a -> nth_error lines j = Some b -> Exists (fun br => finds br x) a -> Exists (fun br => finds br x) b -> i = j).
Lemma row_found k c root : row k c -> (exists n a t cs tl, root = Elem n a t cs tl) -> forall sp, usual_space sp ->
  exists l, all_xpaths (xpath_at root) [] (parse_xpaths sp (dict_get (u k) article)) = Ok l /\ NoDup l /\ forall q, In q l <-> exists x, trail root q = Some x /\ c x.
Proof.
  intros (lines & E & P & C & D) Hroot sp Hsp. rewrite xpaths_usual by (try exact Hsp; apply article_ascii). unfold field_lines, expressions in E.
  destruct (parse_all _) as [es|] eqn:G; [|discriminate]. injection E as <-. rewrite (all_found root [] _ _ G). eexists. split; [reflexivity|].
  assert (F : forall e q, In e es -> In q (eval_xpath root e []) <-> exists x, trail root q = Some x /\ Exists (fun br => finds br x) (branches e)).
  { intros e q He. apply eval_finds; [exact Hroot|]. rewrite forallb_forall in P. exact (P _ (in_map branches es e He)). }
  split.
  - clear -D F. assert (D' : forall i j a b q, nth_error es i = Some a -> nth_error es j = Some b -> In q (eval_xpath root a []) -> In q (eval_xpath root b []) -> i = j).
    { intros i j a b q Ha Hb H1 H2. apply F in H1 as (x & Hx & H1); [|eapply nth_error_In; exact Ha]. apply F in H2 as (y & Hy & H2); [|eapply nth_error_In; exact Hb]. rewrite Hx in Hy. injection Hy as <-.
      apply (D i j (branches a) (branches b) x); try assumption; now apply map_nth_error. }
    clear D F. induction es as [|e es IH]; cbn [flat_map]; [constructor|]. apply nodup_app.
    + apply C114_once.
    + apply IH. intros i j a b q Ha Hb H1 H2. assert (S i = S j) by (apply (D' (S i) (S j) a b q); assumption). now injection H.
    + intros q H1 H2. apply in_flat_map in H2 as (e' & He & H2). apply In_nth_error in He as (j & Hj). discriminate (D' 0 (S j) e e' q eq_refl Hj H1 H2).
  - intros q. rewrite in_flat_map. split.
    + intros (e & He & H). apply (F e q He) in H as (x & Hx & H). exists x. split; [exact Hx|]. apply C. apply Exists_exists. exists (branches e). split; [now apply in_map|exact H].
    + intros (x & Hx & H). apply C in H. apply Exists_exists in H as (bs & Hb & H). apply in_map_iff in Hb as (e & <- & He). exists e. split; [exact He|]. apply (F e q He). now exists x.
Qed.

Lemma row_one k c bs : field_lines (dict_get (u k) article) = Some [bs] -> forallb (fun b => forallb plain_step (snd b) && ends_below (snd b)) bs = true ->
  (forall x, Exists (fun br => finds br x) bs <-> c x) -> row k c.
Proof.
  intros E P C. exists [bs]. split; [exact E|]. split; [cbn; now rewrite P|]. split.
  - intros x. rewrite <- C. split; [intros H; inversion H as [? ? H1|? ? H1]; subst; [exact H1|inversion H1]|now constructor].
  - intros [|[|i]] [|[|j]] a b x; cbn; congruence.
Qed.
Lemma row_single k c b : field_lines (dict_get (u k) article) = Some [[b]] -> forallb plain_step (snd b) && ends_below (snd b) = true ->
  (forall x, finds b x <-> c x) -> row k c.
Proof.
  intros E P C. apply (row_one k c [b] E); [cbn; now rewrite P|]. intros x. rewrite <- C. split; [intros H; inversion H as [? ? H1|? ? H1]; subst; [exact H1|inversion H1]|now constructor].
Qed.

Lemma with_attr_snoc k v y n a : with_attr k v (y ++ [(n, a)]) <-> dict_get (u k) a = Some (u v).
Proof. split; [intros (y' & n' & a' & E & H); apply app_inj_tail in E as [_ [= -> ->]]; exact H|]. intros H. now exists y, n, a. Qed.
Lemma at_path_snoc l n x : at_path (l ++ [n]) x <-> exists y a, x = y ++ [(u n, a)] /\ at_path l y.
Proof.
  unfold at_path, us. setoid_rewrite map_app. split.
  - intros (r & H). change (r :: map u l ++ map u [n]) with ((r :: map u l) ++ map u [n]) in H. apply map_eq_app in H as (y & z & -> & H1 & H2). destruct z as [|[k a] [|? ?]]; try discriminate. injection H2 as ->. exists y, a. split; [reflexivity|]. now exists r.
  - intros (y & a & -> & r & H). exists r. now rewrite names_app, H.
Qed.
(** an element with a value of an attribute *)
Lemma finds_attr l n k v x : finds (false, map child l ++ [child_if n [PAttrIs (u k) (u v)]]) x <-> both (at_path (l ++ [n])) (with_attr k v) x.
Proof.
  rewrite finds_snoc_iff by reflexivity. unfold both. rewrite at_path_snoc. split.
  - intros (y & [m a] & -> & H & T & P). cbn in T. subst m. inversion P as [|? ? P1 _]; subst. cbn in P1. split; [exists y, a; split; [reflexivity|now apply finds_path]|now apply with_attr_snoc].
  - intros ((y & a & -> & H) & W). apply with_attr_snoc in W. exists y, (u n, a). split; [reflexivity|]. split; [now apply finds_path|]. split; [reflexivity|]. constructor; [exact W|constructor].
Qed.
Lemma row_path k l : field_lines (dict_get (u k) article) = Some [[(false, map child l)]] -> forallb plain_step (map child l) && ends_below (map child l) = true -> row k (at_path l).
Proof. intros E P. apply (row_single k _ _ E P). apply finds_path. Qed.
Lemma row_attr k l n a v : field_lines (dict_get (u k) article) = Some [[(false, map child l ++ [child_if n [PAttrIs (u a) (u v)]])]] ->
  forallb plain_step (map child l ++ [child_if n [PAttrIs (u a) (u v)]]) && ends_below (map child l ++ [child_if n [PAttrIs (u a) (u v)]]) = true -> row k (both (at_path (l ++ [n])) (with_attr a v)).
Proof. intros E P. apply (row_single k _ _ E P). apply finds_attr. Qed.
Lemma row_anywhere k l : field_lines (dict_get (u k) article) = Some [[(true, slashes :: map child l)]] -> forallb plain_step (slashes :: map child l) && ends_below (slashes :: map child l) = true -> row k (anywhere l).
Proof. intros E P. apply (row_single k _ _ E P). apply finds_anywhere. Qed.
Lemma row_within k n l : field_lines (dict_get (u k) article) = Some [[(false, child n :: slashes :: map child l)]] ->
  forallb plain_step (child n :: slashes :: map child l) && ends_below (child n :: slashes :: map child l) = true -> row k (within n l).
Proof. intros E P. apply (row_single k _ _ E P). apply finds_within. Qed.
Lemma row_below k n l : field_lines (dict_get (u k) article) = Some [[(true, slashes :: child n :: slashes :: map child l)]] ->
  forallb plain_step (slashes :: child n :: slashes :: map child l) && ends_below (slashes :: child n :: slashes :: map child l) = true -> row k (below_any n l).
Proof. intros E P. apply (row_single k _ _ E P). apply finds_below. Qed.
(** several lines *)
Lemma row_lines k cs bs : field_lines (dict_get (u k) article) = Some (map (fun b => [b]) bs) -> forallb (fun b => forallb plain_step (snd b) && ends_below (snd b)) bs = true ->
  Forall2 (fun b (c : list label -> Prop) => forall x, finds b x <-> c x) bs cs ->
  (forall i j c d x, nth_error cs i = Some c -> nth_error cs j = Some d -> c x -> d x -> i = j) -> row k (one_of cs).
Proof.
  intros E P F D. exists (map (fun b => [b]) bs). split; [exact E|]. split; [rewrite forallb_forall in *; intros b Hb; apply in_map_iff in Hb as (b' & <- & Hb); cbn; now rewrite (P b' Hb)|].
  assert (S : forall b x, Exists (fun br => finds br x) [b] <-> finds b x) by (intros b x; split; [intros H; inversion H as [? ? H1|? ? H1]; subst; [exact H1|inversion H1]|now constructor]).
  split.
  - intros x. unfold one_of. clear E P D. induction F as [|b c bs cs H F IH]; cbn [map]; [split; intros H; inversion H|]. rewrite (Exists_cons _ [b]), (Exists_cons _ c cs), IH, S, H. reflexivity.
  - intros i j a b x Hi Hj H1 H2.
    assert (N : forall i a, nth_error (map (fun b => [b]) bs) i = Some a -> exists b c, a = [b] /\ nth_error cs i = Some c /\ forall x, finds b x <-> c x).
    { clear -F. induction F as [|b c bs cs H F IH]; intros i a; [now destruct i|]. destruct i as [|i]; cbn; [intros [= <-]; now exists b, c|apply IH]. }
    apply N in Hi as (bi & ci & -> & Hi & Fi). apply N in Hj as (bj & cj & -> & Hj & Fj). apply (D i j ci cj x Hi Hj); [apply Fi, S, H1|apply Fj, S, H2].
Qed.
(** different last names *)
Lemma last_names (a b : list str) x y l1 l2 : a ++ us l1 = b ++ us l2 -> us l1 = x -> us l2 = y -> a ++ x = b ++ y.
Proof. now intros H <- <-. Qed.
Lemma snoc_names {A} (x y : list A) a b : x ++ [a] = y ++ [b] -> x = y /\ a = b.
Proof. apply app_inj_tail. Qed.
Open Scope string_scope.
Open Scope list_scope.
Open Scope nat_scope.
Lemma row_aff : row "author_aff" (one_of [at_path ["front"; "article-meta"; "contrib-group"; "aff"]; at_path ["front"; "article-meta"; "contrib-group"; "contrib"; "aff"]; at_path ["front"; "article-meta"; "aff"]]).
Proof.
  apply (row_lines _ _ [(false, map child ["front"; "article-meta"; "contrib-group"; "aff"]); (false, map child ["front"; "article-meta"; "contrib-group"; "contrib"; "aff"]); (false, map child ["front"; "article-meta"; "aff"])]);
    [vm_compute; reflexivity|vm_compute; reflexivity|repeat constructor; apply finds_path|].
  intros [|[|[|i]]] [|[|[|j]]] c d x; cbn [nth_error]; intros Hc Hd; try (now destruct i); try (now destruct j); try reflexivity; injection Hc as <-; injection Hd as <-; intros (r1 & H1) (r2 & H2); exfalso;
    rewrite H1 in H2; apply (f_equal (@List.length _)) in H2; discriminate.
Qed.
Lemma row_email : row "email" (one_of [at_path ["front"; "article-meta"; "contrib-group"; "aff"; "email"]; at_path ["front"; "article-meta"; "contrib-group"; "contrib"; "aff"; "email"]; at_path ["front"; "article-meta"; "aff"; "email"]]).
Proof.
  apply (row_lines _ _ [(false, map child ["front"; "article-meta"; "contrib-group"; "aff"; "email"]); (false, map child ["front"; "article-meta"; "contrib-group"; "contrib"; "aff"; "email"]); (false, map child ["front"; "article-meta"; "aff"; "email"])]);
    [vm_compute; reflexivity|vm_compute; reflexivity|repeat constructor; apply finds_path|].
  intros [|[|[|i]]] [|[|[|j]]] c d x; cbn [nth_error]; intros Hc Hd; try (now destruct i); try (now destruct j); try reflexivity; injection Hc as <-; injection Hd as <-; intros (r1 & H1) (r2 & H2); exfalso;
    rewrite H1 in H2; apply (f_equal (@List.length _)) in H2; discriminate.
Qed.
Lemma row_section_title : row "section_title" (one_of [within "body" ["sec"]; within "back" ["sec"]; within "back" ["ack"]]).
Proof.
  apply (row_lines _ _ [(false, mkStep ASelf TNode [] :: child "body" :: slashes :: map child ["sec"]); (false, mkStep ASelf TNode [] :: child "back" :: slashes :: map child ["sec"]); (false, mkStep ASelf TNode [] :: child "back" :: slashes :: map child ["ack"])]);
    [vm_compute; reflexivity|vm_compute; reflexivity|repeat constructor; apply (finds_within)|].
  assert (X : forall n1 n2 l1 l2 x, within n1 [l1] x -> within n2 [l2] x -> u n1 = u n2 /\ u l1 = u l2).
  { intros n1 n2 l1 l2 x (r1 & m1 & H1) (r2 & m2 & H2). rewrite H1 in H2. injection H2 as _ H2 H3. apply snoc_names in H3 as [_ H3]. now split. }
  intros [|[|[|i]]] [|[|[|j]]] c d x; cbn [nth_error]; intros Hc Hd; try (now destruct i); try (now destruct j); try reflexivity; injection Hc as <-; injection Hd as <-; intros H1 H2; exfalso;
    destruct (X _ _ _ _ _ H1 H2) as [E1 E2]; discriminate.
Qed.
Lemma row_section_paragraph : row "section_paragraph" (one_of [anywhere ["sec"; "p"]; anywhere ["ack"; "p"]; at_path ["body"; "p"]]).
Proof.
  exists [[(true, slashes :: map child ["sec"; "p"]); (true, slashes :: map child ["ack"; "p"])]; [(false, mkStep ASelf TNode [] :: map child ["body"; "p"])]].
  split; [vm_compute; reflexivity|]. split; [vm_compute; reflexivity|].
  assert (F : forall x, finds (false, mkStep ASelf TNode [] :: map child ["body"; "p"]) x <-> at_path ["body"; "p"] x) by (intros x; exact (finds_path ["body"; "p"] x)). split.
  - intros x. unfold one_of. rewrite !Exists_cons, !Exists_nil, !finds_anywhere, F. tauto.
  - assert (X : forall n x, anywhere [n; "p"] x -> at_path ["body"; "p"] x -> u n = u "body").
    { intros n x (m & H1) (r & H2). rewrite H1 in H2. unfold us in H2. cbn [map] in H2. change ([r; u "body"; u "p"] : list str) with ([r; u "body"] ++ [u "p"]) in H2. change [u n; u "p"] with ([u n] ++ [u "p"]) in H2. rewrite app_assoc in H2.
      apply snoc_names in H2 as [H2 _]. change [r; u "body"] with ([r] ++ [u "body"]) in H2. now apply snoc_names in H2 as [_ H2]. }
    assert (F2 : forall n x, finds (true, [slashes; child n; child "p"]) x <-> anywhere [n; "p"] x) by (intros n x; exact (finds_anywhere [n; "p"] x)).
    assert (F3 : forall x, finds (false, [mkStep ASelf TNode []; child "body"; child "p"]) x <-> at_path ["body"; "p"] x) by exact F.
    intros [|[|i]] [|[|j]] a b x; cbn [nth_error]; intros Ha Hb; try (now destruct i); try (now destruct j); try reflexivity; injection Ha as <-; injection Hb as <-; rewrite !Exists_cons, !Exists_nil, !F2, F3; intros H1 H2; exfalso.
    + destruct H2 as [H2|[]]. destruct H1 as [H1|[H1|[]]]; discriminate (X _ _ H1 H2).
    + destruct H1 as [H1|[]]. destruct H2 as [H2|[H2|[]]]; discriminate (X _ _ H2 H1).
Qed.

Lemma finds_note x : finds (false, map child ["front"; "article-meta"; "author-notes"] ++ [mkStep AChild TElement []]) x <-> author_note x.
Proof.
  rewrite finds_snoc_iff by reflexivity. unfold author_note. split.
  - intros (y & [n a] & -> & H & _ & _). apply finds_path in H as (r & H). exists n, r. now rewrite names_app, H.
  - intros (n & r & H). change (r :: us ["front"; "article-meta"; "author-notes"] ++ [n]) with ((r :: us ["front"; "article-meta"; "author-notes"]) ++ [n]) in H.
    apply map_eq_app in H as (y & z & -> & H1 & H2). destruct z as [|[k a] [|? ?]]; try discriminate. exists y, (k, a). split; [reflexivity|]. split; [apply finds_path; now exists r|]. now repeat constructor.
Qed.
Lemma finds_author x : finds (false, (map child ["front"; "article-meta"; "contrib-group"] ++ [child_if "contrib" [POr (PNot (PAttr (u "contrib-type"))) (PAttrIs (u "contrib-type") (u "author"))]]) ++ [child "name"]) x <-> author_name x.
Proof.
  rewrite finds_snoc_iff by reflexivity. unfold author_name. split.
  - intros (y & [n an] & -> & H & T & _). cbn in T. subst n. apply finds_snoc_iff in H as (z & [c a] & -> & H & T & P); [|reflexivity]. cbn in T. subst c. apply finds_path in H as (r & H).
    destruct z as [|[r' ar] [|[k1 a1] [|[k2 a2] [|[k3 a3] [|? ?]]]]]; try discriminate. cbn [names map fst] in H. injection H as -> H1 H2 H3. assert (k1 = u "front" /\ k2 = u "article-meta" /\ k3 = u "contrib-group") as (-> & -> & ->) by auto.
    exists r, ar, a1, a2, a3, a, an. split; [reflexivity|]. inversion P as [|? ? P1 _]; subst. cbn [pred_on snd] in P1. destruct P1 as [P1|P1]; [left|now right]. destruct (dict_get (u "contrib-type") a); [contradiction P1; discriminate|reflexivity].
  - intros (r & ar & a1 & a2 & a3 & a & n & -> & H). exists [(r, ar); (u "front", a1); (u "article-meta", a2); (u "contrib-group", a3); (u "contrib", a)], (u "name", n). split; [reflexivity|]. split; [|split; [reflexivity|constructor]].
    apply finds_snoc_iff; [reflexivity|]. exists [(r, ar); (u "front", a1); (u "article-meta", a2); (u "contrib-group", a3)], (u "contrib", a). split; [reflexivity|]. split; [apply finds_path; now exists r|]. split; [reflexivity|].
    constructor; [|constructor]. cbn [pred_on snd]. destruct H as [H|H]; [left; rewrite H; intros N; now apply N|now right].
Qed.
Lemma within_snoc n l k x : within n (l ++ [k]) x <-> exists y a, x = y ++ [(u k, a)] /\ within n l y.
Proof.
  unfold within, us. setoid_rewrite map_app. split.
  - intros (r & m & H). change (r :: u n :: m ++ map u l ++ map u [k]) with ((r :: u n :: m) ++ map u l ++ map u [k]) in H. rewrite app_assoc in H. apply map_eq_app in H as (y & z & -> & H1 & H2). destruct z as [|[k' a] [|? ?]]; try discriminate. injection H2 as ->. exists y, a. split; [reflexivity|]. now exists r, m.
  - intros (y & a & -> & r & m & H). exists r, m. rewrite names_app, H. cbn. now rewrite <- app_assoc.
Qed.
Lemma outside_snoc n y k a : outside n (y ++ [(k, a)]) <-> outside n y /\ k <> u n.
Proof.
  unfold outside. rewrite names_app, in_app_iff. split.
  - intros H. split; [intros N; apply H; now left|]. intros ->. apply H. right. now left.
  - intros [H1 H2] [H|[H|[]]]; [easy|]. now apply H2.
Qed.
Definition no_ack : xpred := PNot (PHas AAncestor (TName (u "ack"))).
Definition no_sec : xpred := PNot (PHas AAncestor (TName (u "sec"))).
Lemma finds_sec x : finds (false, [child "back"; slashes] ++ [child_if "sec" [no_ack]]) x <-> within "back" ["sec"] x /\ outside "ack" x.
Proof.
  rewrite finds_snoc_iff by reflexivity. rewrite (within_snoc "back" [] "sec"). split.
  - intros (y & [k a] & -> & H & T & P). cbn in T. subst k. inversion P as [|? ? P1 _]; subst. cbn [pred_on no_ack] in P1. split; [|apply outside_snoc; split; [exact P1|discriminate]]. exists y, a. split; [reflexivity|]. now apply (finds_within "back" []).
  - intros [(y & a & -> & H) O]. apply outside_snoc in O as [O _]. exists y, (u "sec", a). split; [reflexivity|]. split; [now apply (finds_within "back" [])|]. split; [reflexivity|]. constructor; [exact O|constructor].
Qed.
Lemma finds_sec_child n ps x : (forall y a, Forall (fun p => pred_on p y (u n, a)) ps <-> (ps = [] \/ outside "ack" y)) -> u n <> u "ack" ->
  (finds (false, ([child "back"; slashes] ++ [child_if "sec" [no_ack]]) ++ [child_if n ps]) x <-> within "back" ["sec"; n] x /\ outside "ack" x).
Proof.
  intros HP Hn. rewrite finds_snoc_iff by reflexivity. rewrite (within_snoc "back" ["sec"] n). split.
  - intros (y & [k a] & -> & H & T & _). cbn in T. subst k. apply finds_sec in H as [H O]. split; [|apply outside_snoc; split; [exact O|exact Hn]]. now exists y, a.
  - intros [(y & a & -> & H) O]. apply outside_snoc in O as [O _]. exists y, (u n, a). split; [reflexivity|]. split; [now apply finds_sec|]. split; [reflexivity|]. apply HP. now right.
Qed.
Lemma finds_back_p x : finds (false, [child "back"; slashes] ++ [child_if "p" [PAnd no_sec no_ack]]) x <-> within "back" ["p"] x /\ outside "sec" x /\ outside "ack" x.
Proof.
  rewrite finds_snoc_iff by reflexivity. rewrite (within_snoc "back" [] "p"). split.
  - intros (y & [k a] & -> & H & T & P). cbn in T. subst k. inversion P as [|? ? P1 _]; subst. cbn [pred_on no_ack no_sec] in P1. destruct P1 as [P1 P2]. split; [exists y, a; split; [reflexivity|]; now apply (finds_within "back" [])|].
    split; apply outside_snoc; (split; [assumption|discriminate]).
  - intros ((y & a & -> & H) & O1 & O2). apply outside_snoc in O1 as [O1 _]. apply outside_snoc in O2 as [O2 _]. exists y, (u "p", a). split; [reflexivity|]. split; [now apply (finds_within "back" [])|]. split; [reflexivity|].
    constructor; [|constructor]. split; [exact O1|exact O2].
Qed.
Lemma all_rows : Forall (fun kc => row (fst kc) (snd kc)) field_paths.
Proof.
  unfold field_paths.
  Ltac path := apply row_path; vm_compute; reflexivity.
  Ltac any := apply row_anywhere; vm_compute; reflexivity.
  Ltac in_part := apply row_within; vm_compute; reflexivity.
  Ltac below := apply row_below; vm_compute; reflexivity.
  repeat (apply Forall_cons; cbn [fst snd]); [path|path|path| | |path|path|path| | | |exact row_aff|exact row_email|exact row_section_title|exact row_section_paragraph|in_part| |in_part| |below|below|any|below|any|any|any|any|any|in_part|in_part|any|in_part|in_part|path|path|path|constructor].
  - apply (row_attr _ ["front"; "journal-meta"] "issn"); vm_compute; reflexivity.
  - apply (row_attr _ ["front"; "article-meta"] "article-id"); vm_compute; reflexivity.
  - apply (row_attr _ ["front"; "article-meta"; "article-categories"; "subj-group"] "subject"); vm_compute; reflexivity.
  - eapply row_single; [| |exact finds_note]; vm_compute; reflexivity.
  - eapply row_single; [| |exact finds_author]; vm_compute; reflexivity.
  - apply (row_single _ _ (false, ([child "back"; slashes] ++ [child_if "sec" [no_ack]]) ++ [child_if "title" []])%list); [vm_compute; reflexivity|vm_compute; reflexivity|].
    intros x. apply finds_sec_child; [|discriminate]. intros y a. split; [now left|constructor].
  - apply (row_one _ _ [(false, ([child "back"; slashes] ++ [child_if "sec" [no_ack]]) ++ [child_if "p" [no_ack]])%list; (false, [child "back"; slashes] ++ [child_if "p" [PAnd no_sec no_ack]])%list]); [vm_compute; reflexivity|vm_compute; reflexivity|].
    intros x. rewrite !Exists_cons, Exists_nil, finds_back_p. rewrite finds_sec_child; [|intros y a; split; [intros H; inversion H; now right|intros [H|H]; [discriminate|now constructor]]|discriminate].
    unfold both, one_of. rewrite !Exists_cons, Exists_nil. tauto.
Qed.
(** What the fields of the mapping find, in every document: each is found, once, and nothing else
    is.  These are all fields of the mapping. *)
Theorem C115_fields : forall sp root k c, usual_space sp -> (exists n a t cs tl, root = Elem n a t cs tl) -> In (k, c) field_paths ->
  exists l, all_xpaths (xpath_at root) [] (parse_xpaths sp (dict_get (u k) article)) = Ok l /\ NoDup l /\
    forall q, In q l <-> exists x, trail root q = Some x /\ c x.
Proof. intros sp root k c Hsp Hroot Hk. pose proof all_rows as R. rewrite Forall_forall in R. specialize (R _ Hk). cbn in R. now apply row_found. Qed.
Theorem C115_all : map (fun kc => u (fst kc)) field_paths = field_names article.
Proof. vm_compute. reflexivity. Qed.

(* ---------------------------------------------------------------- *)
(** ** Expressions that start at an element that was found *)
(** [b]: from the root element down to the element; [m]: the elements below it, down to the one found *)
Definition rel_path (l : list string) (b m : list label) : Prop := names m = us l.
Definition rel_below (l : list string) (b m : list label) : Prop := anywhere l m.
Definition rel_all (b m : list label) : Prop := m <> [].
Definition rel_either (c d : list label -> list label -> Prop) (b m : list label) : Prop := c b m \/ d b m.
Definition rel_attr (c : list label -> list label -> Prop) (k v : string) (b m : list label) : Prop := c b m /\ with_attr k v m.
(** a [kwd] that is an author keyword, or of no type *)
Definition rel_keyword (b m : list label) : Prop := exists a, m = [(u "kwd", a)] /\ (dict_get (u "kwd-group-type") a = Some (u "author-keywords") \/ dict_get (u "kwd-group-type") a = None).
Definition rel_child_but (n : string) (b m : list label) : Prop := exists k, names m = [k] /\ k <> u n.
(** not inside of a [person-group]: in or around the element *)
Definition rel_lone_name (b m : list label) : Prop := anywhere ["string-name"] m /\ outside "person-group" (b ++ m).
Definition rel_editor (b m : list label) : Prop := exists m1 a n, m = m1 ++ [(u "person-group", a); (u "string-name", n)] /\ dict_get (u "person-group-type") a = Some (u "editor").
Definition inner_paths : list (string * (list label -> list label -> Prop)) :=
  [(".//*", rel_all);
   ("./label | ./caption", rel_either (rel_path ["label"]) (rel_path ["caption"]));
   ("kwd[@kwd-group-type='author-keywords' or not(@kwd-group-type)]", rel_keyword);
   ("./title", rel_path ["title"]);
   ("./*[not(self::list-item)]", rel_child_but "list-item");
   ("fpage|lpage", rel_either (rel_path ["fpage"]) (rel_path ["lpage"]));
   (".//list|fig|table-wrap", rel_either (rel_below ["list"]) (rel_either (rel_path ["fig"]) (rel_path ["table-wrap"])));
   (".//fig|table-wrap", rel_either (rel_below ["fig"]) (rel_path ["table-wrap"]));
   (".//string-name[not(ancestor::person-group)]", rel_lone_name);
   (".//person-group[@person-group-type=""editor""]/string-name", rel_editor)]
  ++ map (fun n => (append "./" n, rel_path [n])) ["label"; "institution"; "country"; "caption"]
  ++ map (fun n => (n, rel_path [n])) ["fpage"; "lpage"]
  ++ map (fun n => (append "./addr-line/named-content[@content-type=""" (append n """]"), rel_attr (rel_path ["addr-line"; "named-content"]) "content-type" n)) ["department"; "city"; "postcode"; "state"]
  ++ map (fun n => (append ".//" n, rel_below [n]))
      ["article-title"; "source"; "publisher-name"; "publisher-loc"; "etal"; "issn"; "isbn"; "ext-link"; "year"; "volume"; "issue"; "fpage"; "lpage"]
  ++ map (fun n => (append ".//xref[@ref-type=""" (append n """]"), rel_attr (rel_below ["xref"]) "ref-type" n)) ["bibr"; "fig"; "table"; "disp-formula"; "sec"; "boxed-text"]
  ++ map (fun n => (append ".//pub-id[@pub-id-type=""" (append n """]"), rel_attr (rel_below ["pub-id"]) "pub-id-type" n)) ["doi"; "pii"; "pmid"; "pmcid"; "arXiv"].

(** the steps of such expressions *)
Definition here : xstep := mkStep ASelf TNode [].
Definition inner_row (s : string) (c : list label -> list label -> Prop) : Prop := exists e,
  parse_xpath (u s) = Some e /\ plain_expr e = true /\ forallb (fun b => negb (fst b)) (branches e) = true /\
  forall b m, Exists (fun br => steps_on (snd br) b m) (branches e) <-> c b m.
Lemma inner_found s c root p b : inner_row s c -> trail root p = Some b ->
  exists l, xpath_at root p (u s) = Ok l /\ NoDup l /\ forall q, In q l <-> exists r m, q = p ++ r /\ trail root q = Some (b ++ m) /\ c b m.
Proof.
  intros (e & E & P & R & C) Hp. unfold xpath_at. rewrite E. eexists. split; [reflexivity|]. split; [apply C114_once|]. intros q. rewrite (C114_trail root e p q b P Hp). rewrite forallb_forall in R. split.
  - intros (x & ss & ab & Hx & Hin & H). pose proof (R _ Hin) as N. destruct ab; [discriminate|]. destruct H as ((r & ->) & m & -> & H). exists r, m. split; [reflexivity|]. split; [exact Hx|]. apply C. apply Exists_exists. now exists (false, ss).
  - intros (r & m & -> & Hx & H). apply C, Exists_exists in H as ([ab ss] & Hin & H). pose proof (R _ Hin) as N. destruct ab; [discriminate|]. exists (b ++ m), ss, false. split; [exact Hx|]. split; [exact Hin|]. split; [now exists r|]. now exists m.
Qed.
Definition is_one (ss : list xstep) (c : list label -> list label -> Prop) : Prop := forall b m, steps_on ss b m <-> c b m.
Lemma one_path l : is_one (map child l) (rel_path l).
Proof. intros b m. apply steps_children. Qed.
Lemma one_here ss c : is_one ss c -> is_one (here :: ss) c.
Proof. exact (fun H => H). Qed.
Lemma one_below l : is_one (slashes :: map child l) (rel_below l).
Proof.
  intros b m. rewrite steps_slashes. unfold rel_below, anywhere. split.
  - intros (m1 & m2 & -> & H). apply steps_children in H. exists (names m1). now rewrite names_app, H.
  - intros (n & H). apply map_eq_app in H as (m1 & m2 & -> & <- & H). exists m1, m2. split; [reflexivity|]. now apply steps_children.
Qed.
Lemma snoc_one ss s b m : st_axis s = AChild ->
  (steps_on (ss ++ [s]) b m <-> exists m1 l, m = m1 ++ [l] /\ steps_on ss b m1 /\ test_on (st_test s) l /\ Forall (fun p => pred_on p (b ++ m1) l) (st_preds s)).
Proof.
  intros E. rewrite steps_app. cbn [steps_on]. rewrite E. split.
  - intros (m1 & m2 & -> & H & l & m' & -> & T & P & ->). now exists m1, l.
  - intros (m1 & l & -> & H & T & P). exists m1, [l]. repeat split; try assumption. now exists l, [].
Qed.
Lemma one_attr ss n k v c d : is_one ss c -> (forall b m, d b m <-> exists m1 a, m = m1 ++ [(u n, a)] /\ c b m1) -> is_one (ss ++ [child_if n [PAttrIs (u k) (u v)]]) (rel_attr d k v).
Proof.
  intros H D b m. rewrite snoc_one by reflexivity. unfold rel_attr. rewrite D. split.
  - intros (m1 & [x a] & -> & H1 & T & P). cbn in T. subst x. inversion P as [|? ? P1 _]; subst. split; [exists m1, a; split; [reflexivity|now apply H]|]. now apply with_attr_snoc.
  - intros [(m1 & a & -> & H1) W]. apply with_attr_snoc in W. exists m1, (u n, a). split; [reflexivity|]. split; [now apply H|]. split; [reflexivity|]. constructor; [exact W|constructor].
Qed.
Lemma anywhere_one n x : anywhere [n] x <-> exists y a, x = y ++ [(u n, a)].
Proof.
  unfold anywhere. split.
  - intros (m & H). apply map_eq_app in H as (y & z & -> & _ & H). destruct z as [|[k a] [|? ?]]; try discriminate. injection H as ->. now exists y, a.
  - intros (y & a & ->). exists (names y). now rewrite names_app.
Qed.
Lemma any_steps b m : steps_on [slashes] b m <-> True.
Proof. split; [easy|]. intros _. exists m, []. rewrite app_nil_r. now split. Qed.
Lemma inner_one s c ss : parse_xpath (u s) = Some (ELoc false ss) -> plain_expr (ELoc false ss) = true -> is_one ss c -> inner_row s c.
Proof.
  intros E P H. exists (ELoc false ss). split; [exact E|]. split; [exact P|]. split; [reflexivity|]. intros b m. cbn [branches]. rewrite Exists_cons, Exists_nil. cbn [snd]. rewrite (H b m). tauto.
Qed.
Lemma inner_two s c d ss tt : parse_xpath (u s) = Some (EUnion (ELoc false ss) (ELoc false tt)) -> plain_expr (EUnion (ELoc false ss) (ELoc false tt)) = true -> is_one ss c -> is_one tt d -> inner_row s (rel_either c d).
Proof.
  intros E P H1 H2. exists (EUnion (ELoc false ss) (ELoc false tt)). split; [exact E|]. split; [exact P|]. split; [reflexivity|]. intros b m. cbn [branches app]. rewrite !Exists_cons, Exists_nil. cbn [snd]. rewrite (H1 b m), (H2 b m). unfold rel_either. tauto.
Qed.
Lemma one_all : is_one ([here; slashes] ++ [mkStep AChild TElement []]) rel_all.
Proof.
  intros b m. rewrite snoc_one by reflexivity. unfold rel_all. split; [intros (m1 & l & -> & _); now destruct m1|].
  intros H. destruct m as [|l m] using rev_ind; [easy|]. exists m, l. split; [reflexivity|]. split; [now apply (any_steps b m)|]. split; [exact I|constructor].
Qed.
Lemma one_keyword : is_one [child_if "kwd" [POr (PAttrIs (u "kwd-group-type") (u "author-keywords")) (PNot (PAttr (u "kwd-group-type")))]] rel_keyword.
Proof.
  intros b m. etransitivity; [apply (snoc_one [] (child_if "kwd" _) b m); reflexivity|]. unfold rel_keyword. split.
  - intros (m1 & [k a] & -> & -> & T & P). cbn in T. subst k. inversion P as [|? ? P1 _]; subst. exists a. split; [reflexivity|]. cbn [pred_on snd] in P1. destruct P1 as [P1|P1]; [now left|right]. destruct (dict_get _ a); [contradiction P1; discriminate|reflexivity].
  - intros (a & -> & H). exists [], (u "kwd", a). split; [reflexivity|]. split; [reflexivity|]. split; [reflexivity|]. constructor; [|constructor]. cbn [pred_on snd]. destruct H as [H|H]; [now left|right]. rewrite H. intros N. now apply N.
Qed.
Lemma one_child_but n : is_one ([here] ++ [mkStep AChild TElement [PNot (PHas ASelf (TName (u n)))]]) (rel_child_but n).
Proof.
  intros b m. rewrite snoc_one by reflexivity. unfold rel_child_but. split.
  - intros (m1 & [k a] & -> & H & _ & P). cbn [steps_on here st_axis] in H. subst m1. inversion P as [|? ? P1 _]; subst. exists k. now split.
  - intros (k & H & N). destruct m as [|[k' a] [|? ?]]; try discriminate. injection H as ->. exists [], (k, a). split; [reflexivity|]. split; [reflexivity|]. split; [exact I|]. constructor; [exact N|constructor].
Qed.
Lemma one_lone : is_one ([here; slashes] ++ [child_if "string-name" [PNot (PHas AAncestor (TName (u "person-group")))]]) rel_lone_name.
Proof.
  intros b m. rewrite snoc_one by reflexivity. unfold rel_lone_name. rewrite anywhere_one. split.
  - intros (m1 & [k a] & -> & _ & T & P). cbn in T. subst k. inversion P as [|? ? P1 _]; subst. split; [now exists m1, a|]. rewrite app_assoc. apply outside_snoc. split; [exact P1|discriminate].
  - intros [(m1 & a & ->) O]. rewrite app_assoc in O. apply outside_snoc in O as [O _]. exists m1, (u "string-name", a). split; [reflexivity|]. split; [now apply (any_steps b m1)|]. split; [reflexivity|]. constructor; [exact O|constructor].
Qed.
Lemma one_editor : is_one (([here; slashes] ++ [child_if "person-group" [PAttrIs (u "person-group-type") (u "editor")]]) ++ [child "string-name"]) rel_editor.
Proof.
  intros b m. rewrite snoc_one by reflexivity. unfold rel_editor. split.
  - intros (m1 & [k n] & -> & H & T & _). cbn in T. subst k. apply snoc_one in H as (m2 & [k a] & -> & _ & T & P); [|reflexivity]. cbn in T. subst k. inversion P as [|? ? P1 _]; subst. exists m2, a, n. rewrite <- app_assoc. now split.
  - intros (m1 & a & n & -> & H). exists (m1 ++ [(u "person-group", a)]), (u "string-name", n). rewrite <- app_assoc. split; [reflexivity|]. split; [|split; [reflexivity|constructor]].
    apply snoc_one; [reflexivity|]. exists m1, (u "person-group", a). split; [reflexivity|]. split; [now apply (any_steps b m1)|]. split; [reflexivity|]. constructor; [exact H|constructor].
Qed.
Lemma one_below_attr n k v : is_one ([here; slashes] ++ [child_if n [PAttrIs (u k) (u v)]]) (rel_attr (rel_below [n]) k v).
Proof.
  apply (one_attr [here; slashes] n k v (fun _ _ => True)); [exact any_steps|]. intros b m. unfold rel_below. rewrite anywhere_one. split; [intros (y & a & ->); now exists y, a|intros (y & a & -> & _); now exists y, a].
Qed.
Lemma one_path_attr n k a v : is_one ([here; child n] ++ [child_if k [PAttrIs (u a) (u v)]]) (rel_attr (rel_path [n; k]) a v).
Proof.
  apply (one_attr [here; child n] k a v (rel_path [n])); [exact (one_path [n])|]. intros b m. unfold rel_path. split.
  - intros H. destruct m as [|[x ax] [|[y ay] [|? ?]]]; try discriminate. injection H as -> ->. now exists [(u n, ax)], ay.
  - intros (m1 & ay & -> & H). now rewrite names_app, H.
Qed.
Lemma inner_rows : Forall (fun sc => inner_row (fst sc) (snd sc)) inner_paths.
Proof.
  unfold inner_paths. rewrite !Forall_app, !Forall_map.
  Ltac chk := vm_compute; reflexivity.
  split; [|split; [|split; [|split; [|split; [|split]]]]]; repeat (apply Forall_cons; cbn [fst snd]); try apply Forall_nil.
  - eapply inner_one; [| |exact (one_all)]; chk.
  - apply (inner_two _ _ _ [here; child "label"] [here; child "caption"]); [chk|chk|exact (one_path ["label"])|exact (one_path ["caption"])].
  - eapply inner_one; [| |exact (one_keyword)]; chk.
  - apply (inner_one _ _ [here; child "title"]); [chk|chk|exact (one_path ["title"])].
  - eapply inner_one; [| |exact ((one_child_but "list-item"))]; chk.
  - apply (inner_two _ _ _ [child "fpage"] [child "lpage"]); [chk|chk|exact (one_path ["fpage"])|exact (one_path ["lpage"])].
  - exists (EUnion (ELoc false [here; slashes; child "list"]) (EUnion (ELoc false [child "fig"]) (ELoc false [child "table-wrap"]))). split; [chk|]. split; [chk|]. split; [reflexivity|].
    intros b m. cbn [branches app]. rewrite !Exists_cons, Exists_nil. cbn [snd]. pose proof (one_below ["list"] b m) as H1. pose proof (one_path ["fig"] b m) as H2. pose proof (one_path ["table-wrap"] b m) as H3.
    unfold rel_either. rewrite <- H1, <- H2, <- H3. cbn [map]. change (steps_on [here; slashes; child "list"] b m) with (steps_on [slashes; child "list"] b m). tauto.
  - apply (inner_two _ _ _ [here; slashes; child "fig"] [child "table-wrap"]); [chk|chk|exact (one_below ["fig"])|exact (one_path ["table-wrap"])].
  - eapply inner_one; [| |exact (one_lone)]; chk.
  - eapply inner_one; [| |exact (one_editor)]; chk.
  - apply (inner_one _ _ [here; child "label"]); [chk|chk|exact (one_path ["label"])].
  - apply (inner_one _ _ [here; child "institution"]); [chk|chk|exact (one_path ["institution"])].
  - apply (inner_one _ _ [here; child "country"]); [chk|chk|exact (one_path ["country"])].
  - apply (inner_one _ _ [here; child "caption"]); [chk|chk|exact (one_path ["caption"])].
  - apply (inner_one _ _ [child "fpage"]); [chk|chk|exact (one_path ["fpage"])].
  - apply (inner_one _ _ [child "lpage"]); [chk|chk|exact (one_path ["lpage"])].
  - eapply inner_one; [| |exact (one_path_attr "addr-line" "named-content" "content-type" "department")]; chk.
  - eapply inner_one; [| |exact (one_path_attr "addr-line" "named-content" "content-type" "city")]; chk.
  - eapply inner_one; [| |exact (one_path_attr "addr-line" "named-content" "content-type" "postcode")]; chk.
  - eapply inner_one; [| |exact (one_path_attr "addr-line" "named-content" "content-type" "state")]; chk.
  - eapply inner_one; [| |exact (one_here _ _ (one_below ["article-title"]))]; chk.
  - eapply inner_one; [| |exact (one_here _ _ (one_below ["source"]))]; chk.
  - eapply inner_one; [| |exact (one_here _ _ (one_below ["publisher-name"]))]; chk.
  - eapply inner_one; [| |exact (one_here _ _ (one_below ["publisher-loc"]))]; chk.
  - eapply inner_one; [| |exact (one_here _ _ (one_below ["etal"]))]; chk.
  - eapply inner_one; [| |exact (one_here _ _ (one_below ["issn"]))]; chk.
  - eapply inner_one; [| |exact (one_here _ _ (one_below ["isbn"]))]; chk.
  - eapply inner_one; [| |exact (one_here _ _ (one_below ["ext-link"]))]; chk.
  - eapply inner_one; [| |exact (one_here _ _ (one_below ["year"]))]; chk.
  - eapply inner_one; [| |exact (one_here _ _ (one_below ["volume"]))]; chk.
  - eapply inner_one; [| |exact (one_here _ _ (one_below ["issue"]))]; chk.
  - eapply inner_one; [| |exact (one_here _ _ (one_below ["fpage"]))]; chk.
  - eapply inner_one; [| |exact (one_here _ _ (one_below ["lpage"]))]; chk.
  - eapply inner_one; [| |exact (one_below_attr "xref" "ref-type" "bibr")]; chk.
  - eapply inner_one; [| |exact (one_below_attr "xref" "ref-type" "fig")]; chk.
  - eapply inner_one; [| |exact (one_below_attr "xref" "ref-type" "table")]; chk.
  - eapply inner_one; [| |exact (one_below_attr "xref" "ref-type" "disp-formula")]; chk.
  - eapply inner_one; [| |exact (one_below_attr "xref" "ref-type" "sec")]; chk.
  - eapply inner_one; [| |exact (one_below_attr "xref" "ref-type" "boxed-text")]; chk.
  - eapply inner_one; [| |exact (one_below_attr "pub-id" "pub-id-type" "doi")]; chk.
  - eapply inner_one; [| |exact (one_below_attr "pub-id" "pub-id-type" "pii")]; chk.
  - eapply inner_one; [| |exact (one_below_attr "pub-id" "pub-id-type" "pmid")]; chk.
  - eapply inner_one; [| |exact (one_below_attr "pub-id" "pub-id-type" "pmcid")]; chk.
  - eapply inner_one; [| |exact (one_below_attr "pub-id" "pub-id-type" "arXiv")]; chk.
Qed.
(** What the expressions below a field find, from any element of any document; and these are
    all such expressions of the mapping ([.children], [.ignore] and [.sub]). *)
Theorem C115_inner : forall root p b s c, In (s, c) inner_paths -> trail root p = Some b ->
  exists l, xpath_at root p (u s) = Ok l /\ NoDup l /\ forall q, In q l <-> exists r m, q = p ++ r /\ trail root q = Some (b ++ m) /\ c b m.
Proof. intros root p b s c H. pose proof inner_rows as R. rewrite Forall_forall in R. specialize (R _ H). now apply inner_found. Qed.
Definition inner_key (key : str) : Prop := exists f, key = f ++ u ".children" \/ key = f ++ u ".ignore" \/ exists n, key = f ++ u ".sub." ++ n.
Theorem C115_inner_all : forall key v, In (key, v) article -> inner_key key -> exists s c, In (s, c) inner_paths /\ v = u s.
Proof.
  intros key v Hin Hk.
  set (marked := fun key => ends_with (u ".children") key || ends_with (u ".ignore") key || existsb (fun i => starts_with (u ".sub.") (skipn i key)) (seq 0 (length key))).
  assert (M : marked key = true).
  { unfold marked. rewrite !orb_true_iff. destruct Hk as (f & [-> | [-> | (n & ->)]]); [left; left; apply ends_with_app|left; right; apply ends_with_app|right].
    apply existsb_exists. exists (length f). split; [apply in_seq; rewrite app_length; cbn; lia|]. rewrite skipn_app, skipn_all, Nat.sub_diag. apply starts_with_spec. now exists n. }
  assert (E : forallb (fun kv => implb (marked (fst kv)) (mem (snd kv) (map (fun sc => u (fst sc)) inner_paths))) article = true) by (vm_compute; reflexivity).
  rewrite forallb_forall in E. specialize (E _ Hin). cbn [fst snd] in E. rewrite M in E. apply mem_spec in E. apply in_map_iff in E as ([s c] & <- & E). now exists s, c.
Qed.

(* ---------------------------------------------------------------- *)
(** ** Fields that find the same element *)
Section Same.
Variable sp : N -> bool.
Hypothesis Hsp : usual_space sp.
Variable root : xml.
Hypothesis Hroot : exists n a t cs tl, root = Elem n a t cs tl.
(** the field [k] of the mapping finds the element at [q] *)
Definition found (k : string) (q : npath) : Prop := exists l, all_xpaths (xpath_at root) [] (parse_xpaths sp (dict_get (u k) article)) = Ok l /\ In q l.
Definition stands_at (c : list label -> Prop) (q : npath) : Prop := exists x, trail root q = Some x /\ c x.
Lemma found_iff k c q : In (k, c) field_paths -> (found k q <-> stands_at c q).
Proof.
  intros H. destruct (C115_fields sp root k c Hsp Hroot H) as (l & E & _ & S). unfold found. split.
  - intros (l' & E' & Hq). rewrite E in E'. injection E' as <-. now apply S.
  - intros Hq. exists l. split; [exact E|now apply S].
Qed.
Ltac fld := unfold field_paths; repeat (first [left; reflexivity|right]).
Lemma stands_iff c d q x : trail root q = Some x -> (stands_at c q <-> d) <-> (c x <-> d).
Proof. intros H. assert (E : stands_at c q <-> c x) by (split; [intros (y & Hy & C); congruence|intros C; now exists x]). now rewrite E. Qed.
Lemma stands_here c q x : trail root q = Some x -> (stands_at c q <-> c x).
Proof. intros H. now apply (stands_iff c (c x) q x H). Qed.
(** in an element [n] *)
Definition inside (n : string) (x : list label) : Prop := In (u n) (names x).
Definition child_of_sec (x : list label) : Prop := exists y l, x = y ++ [l] /\ anywhere ["sec"] y.
Lemma below_any_iff n k x : u n <> u k -> anywhere [k] x -> (below_any n [k] x <-> inside n x).
Proof.
  intros N (m & E). unfold below_any, inside. rewrite E. split.
  - intros (m1 & m2 & ->). apply in_or_app. right. now left.
  - intros H. apply in_app_or in H as [H|[H|[]]]; [|now symmetry in H]. apply in_split in H as (m1 & m2 & ->). exists m1, m2. now rewrite <- app_assoc.
Qed.
Lemma within_anywhere n l x : within n l x -> anywhere l x.
Proof. intros (r & m & E). exists (r :: u n :: m). exact E. Qed.
Lemma anywhere_tail n k x : anywhere [n; k] x -> anywhere [k] x.
Proof. intros (m & E). exists (m ++ [u n]). rewrite <- app_assoc. exact E. Qed.
(** the title of a section in the back is one of a section or one of the acknowledgments, never both *)
Theorem C116_back_titles : forall q, stands_at (within "back" ["sec"; "title"]) q ->
  (found "acknowledgment_section_title" q <-> stands_at (inside "ack") q) /\ (found "back_section_title" q <-> ~ found "acknowledgment_section_title" q).
Proof.
  intros q (x & Hx & H). rewrite (found_iff "acknowledgment_section_title" (below_any "ack" ["title"])) by fld. rewrite (found_iff "back_section_title" (both (within "back" ["sec"; "title"]) (outside "ack"))) by fld.
  rewrite !(stands_here _ q x Hx). rewrite below_any_iff by (try discriminate; exact (anywhere_tail "sec" "title" x (within_anywhere _ _ _ H))). unfold both, outside, inside. tauto.
Qed.
(** a paragraph in the back is one of the acknowledgments; or outside of sections, or a child of a section; or neither *)
Theorem C116_back_paragraphs : forall q, stands_at (within "back" ["p"]) q ->
  (found "acknowledgment_section_paragraph" q <-> stands_at (inside "ack") q) /\
  (found "back_section_paragraph" q <-> ~ found "acknowledgment_section_paragraph" q /\ (stands_at child_of_sec q \/ ~ stands_at (inside "sec") q)).
Proof.
  intros q (x & Hx & H). rewrite (found_iff "acknowledgment_section_paragraph" (below_any "ack" ["p"])) by fld.
  rewrite (found_iff "back_section_paragraph" (both (outside "ack") (one_of [within "back" ["sec"; "p"]; both (within "back" ["p"]) (outside "sec")]))) by fld.
  rewrite !(stands_here _ q x Hx). rewrite below_any_iff by (try discriminate; exact (within_anywhere _ _ _ H)). split; [reflexivity|].
  unfold both, one_of. rewrite !Exists_cons, Exists_nil. unfold outside, inside.
  assert (C : within "back" ["sec"; "p"] x <-> child_of_sec x).
  { rewrite (within_snoc "back" ["sec"] "p"). unfold child_of_sec. apply (within_snoc "back" [] "p") in H as (y & a & -> & H). split.
    - intros (y' & a' & E & W). apply app_inj_tail in E as [<- _]. exists y, (u "p", a). split; [reflexivity|]. now apply within_anywhere in W.
    - intros (y' & l & E & A). apply app_inj_tail in E as [<- <-]. exists y, a. split; [reflexivity|]. destruct H as (r & m & H). rewrite app_nil_r in H. destruct A as (m2 & A). rewrite H in A.
      destruct m as [|k m] using rev_ind.
      + exfalso. change (us ["sec"]) with [u "sec"] in A. change [r; u "back"] with ([r] ++ [u "back"]) in A. apply app_inj_tail in A as [_ A]. discriminate.
      + clear IHm. change (us ["sec"]) with [u "sec"] in A. change (r :: u "back" :: m ++ [k]) with ((r :: u "back" :: m) ++ [k]) in A. apply app_inj_tail in A as [_ A]. subst k. now exists r, m. }
  rewrite C. tauto.
Qed.
(** what is found in the body is not found in the back *)
Theorem C116_parts : forall q k1 k2, In k1 ["body_section_title"; "body_section_paragraph"; "body_figure"; "body_table"] -> In k2 ["back_section_title"; "back_section_paragraph"; "back_figure"; "back_table"; "reference"; "reference_list_title"] ->
  found k1 q -> ~ found k2 q.
Proof.
  intros q k1 k2 H1 H2.
  assert (B : forall part k c, In (k, c) field_paths -> (forall x, c x -> exists l, within part l x) -> found k q -> exists x l, trail root q = Some x /\ within part l x).
  { intros part k c Hk Hc Hf. apply (found_iff k c q Hk) in Hf as (x & Hx & C). destruct (Hc x C) as (l & W). now exists x, l. }
  assert (P : forall part l x, at_path (part :: l) x -> within part l x) by (intros part l x (r & E); exists r, []; exact E).
  assert (W1 : found k1 q -> exists x l, trail root q = Some x /\ within "body" l x).
  { cbn [In] in H1. destruct H1 as [<-|[<-|[<-|[<-|[]]]]]; (eapply B; [fld|]); intros x C; eexists; exact C. }
  assert (W2 : found k2 q -> exists x l, trail root q = Some x /\ within "back" l x).
  { cbn [In] in H2. destruct H2 as [<-|[<-|[<-|[<-|[<-|[<-|[]]]]]]].
    - apply (B "back" _ (both (within "back" ["sec"; "title"]) (outside "ack"))); [fld|]. intros x [C _]. eexists; exact C.
    - apply (B "back" _ (both (outside "ack") (one_of [within "back" ["sec"; "p"]; both (within "back" ["p"]) (outside "sec")]))); [fld|]. intros x [_ C]. unfold one_of in C. rewrite !Exists_cons, Exists_nil in C. destruct C as [C|[[C _]|[]]]; eexists; exact C.
    - apply (B "back" _ (within "back" ["fig"])); [fld|]. intros x C. eexists; exact C.
    - apply (B "back" _ (within "back" ["table-wrap"])); [fld|]. intros x C. eexists; exact C.
    - apply (B "back" _ (at_path ["back"; "ref-list"; "ref"])); [fld|]. intros x C. exists ["ref-list"; "ref"]. now apply P.
    - apply (B "back" _ (at_path ["back"; "ref-list"; "title"])); [fld|]. intros x C. exists ["ref-list"; "title"]. now apply P. }
  intros F1 F2. destruct (W1 F1) as (x & l & Hx & r & m & E1). destruct (W2 F2) as (y & l' & Hy & r' & m' & E2). rewrite Hx in Hy. injection Hy as <-. rewrite E1 in E2. injection E2 as _ E2. discriminate.
Qed.
(** Two default fields of the fulltext command find the same element only if it is a paragraph of a section in a boxed text. *)
Definition last_names_of (k : string) : list string :=
  match k with
  | "keywords" => ["kwd-group"] | "section_title" => ["sec"; "ack"] | "section_paragraph" => ["p"] | "boxed_text_title" => ["boxed-text"] | "boxed_text_paragraph" => ["p"]
  | "list" => ["list"] | "list_item" => ["list-item"] | "appendix_group_title" => ["title"] | "appendix" => ["app"] | "figure" => ["fig"] | "table" => ["table-wrap"] | "reference_list_title" => ["title"]
  | _ => []
  end.
Definition fulltext_fields : list string :=
  ["keywords"; "section_title"; "section_paragraph"; "boxed_text_title"; "boxed_text_paragraph"; "list"; "list_item"; "appendix_group_title"; "appendix"; "figure"; "table"; "reference_list_title"].
Lemma ends_named l k n x : anywhere l x -> last l "" = k -> l <> [] -> n = u k -> exists y a, x = y ++ [(n, a)].
Proof.
  intros A L N ->. destruct l as [|l0 l] using rev_ind; [easy|]. rewrite last_last in L. subst l0. destruct A as (m & E). unfold us in E. rewrite map_app, app_assoc in E.
  apply map_eq_app in E as (y & z & -> & _ & E). destruct z as [|[k' a] [|? ?]]; try discriminate. injection E as ->. now exists y, a.
Qed.
Lemma at_path_anywhere l x : at_path l x -> anywhere l x.
Proof. intros (r & E). now exists [r]. Qed.
Lemma below_anywhere n l x : below_any n l x -> anywhere l x.
Proof. intros (m1 & m2 & E). exists (m1 ++ u n :: m2). rewrite <- app_assoc. exact E. Qed.
Lemma fulltext_last k q : In k fulltext_fields -> found k q -> exists y n a, trail root q = Some (y ++ [(n, a)]) /\ In n (us (last_names_of k)).
Proof.
  intros Hk Hf. assert (L : exists c, In (k, c) field_paths /\ forall x, c x -> Exists (fun n => exists l, anywhere l x /\ last l "" = n /\ l <> []) (last_names_of k)).
  { unfold fulltext_fields in Hk. cbn [In] in Hk.
    destruct Hk as [<-|[<-|[<-|[<-|[<-|[<-|[<-|[<-|[<-|[<-|[<-|[<-|[]]]]]]]]]]]]]; (eexists; split; [fld|]); intros x C; unfold one_of in C;
      rewrite ?Exists_cons, ?Exists_nil in C; unfold last_names_of; rewrite !Exists_cons, Exists_nil.
    - left. eexists. split; [exact (at_path_anywhere _ _ C)|easy].
    - destruct C as [C|[C|[C|[]]]]; [left|left|right; left]; (eexists; split; [exact (within_anywhere _ _ _ C)|easy]).
    - left. destruct C as [C|[C|[C|[]]]]; [eexists; split; [exact C|easy]|eexists; split; [exact C|easy]|eexists; split; [exact (at_path_anywhere _ _ C)|easy]].
    - left. eexists. split; [exact C|easy].
    - left. eexists. split; [exact (below_anywhere _ _ _ C)|easy].
    - left. eexists. split; [exact C|easy].
    - left. eexists. split; [exact C|easy].
    - left. eexists. split; [exact C|easy].
    - left. eexists. split; [exact C|easy].
    - left. eexists. split; [exact C|easy].
    - left. eexists. split; [exact C|easy].
    - left. eexists. split; [exact (at_path_anywhere _ _ C)|easy]. }
  destruct L as (c & Hc & L). destruct (proj1 (found_iff k c q Hc) Hf) as (x & Hx & C). apply L, Exists_exists in C as (n & Hn & l & A & E & N). destruct (ends_named l n (u n) x A E N eq_refl) as (y & a & ->).
  exists y, (u n), a. split; [exact Hx|]. now apply in_map.
Qed.
Theorem C116_fulltext : forall q k1 k2, In k1 fulltext_fields -> In k2 fulltext_fields -> k1 <> k2 -> found k1 q -> found k2 q ->
  (k1 = "section_paragraph" /\ k2 = "boxed_text_paragraph" \/ k1 = "boxed_text_paragraph" /\ k2 = "section_paragraph") /\
  stands_at (both (one_of [anywhere ["sec"; "p"]; anywhere ["ack"; "p"]; at_path ["body"; "p"]]) (below_any "boxed-text" ["p"])) q.
Proof.
  intros q k1 k2 H1 H2 N F1 F2.
  destruct (fulltext_last k1 q H1 F1) as (y1 & n1 & a1 & E1 & I1). destruct (fulltext_last k2 q H2 F2) as (y2 & n2 & a2 & E2 & I2). rewrite E1 in E2. injection E2 as E2. apply app_inj_tail in E2 as [<- [= <- <-]].
  assert (P : In (k1, k2) [("section_paragraph", "boxed_text_paragraph"); ("boxed_text_paragraph", "section_paragraph"); ("appendix_group_title", "reference_list_title"); ("reference_list_title", "appendix_group_title")]).
  { assert (G : forallb (fun k1 => forallb (fun k2 => String.eqb k1 k2 || forallb (fun n => negb (mem n (us (last_names_of k2)))) (us (last_names_of k1)) ||
      existsb (fun p => String.eqb k1 (fst p) && String.eqb k2 (snd p)) [("section_paragraph", "boxed_text_paragraph"); ("boxed_text_paragraph", "section_paragraph"); ("appendix_group_title", "reference_list_title"); ("reference_list_title", "appendix_group_title")])
      fulltext_fields) fulltext_fields = true) by (vm_compute; reflexivity).
    rewrite forallb_forall in G. specialize (G k1 H1). cbv beta in G. rewrite forallb_forall in G. specialize (G k2 H2). cbv beta in G. rewrite !orb_true_iff in G. destruct G as [[G|G]|G].
    - apply String.eqb_eq in G. contradiction.
    - rewrite forallb_forall in G. specialize (G _ I1). apply negb_true_iff in G. exfalso. apply mem_spec in I2. congruence.
    - apply existsb_exists in G as ([p1 p2] & Hp & G). apply andb_prop in G as [G1 G2]. apply String.eqb_eq in G1, G2. cbn [fst snd] in *. now subst. }
  set (cs := one_of [anywhere ["sec"; "p"]; anywhere ["ack"; "p"]; at_path ["body"; "p"]]). set (cb := below_any "boxed-text" ["p"]).
  assert (B : found "section_paragraph" q -> found "boxed_text_paragraph" q -> stands_at (both cs cb) q).
  { intros G1 G2. apply (found_iff _ cs) in G1 as (x & Hx & C1); [|fld]. apply (found_iff _ cb) in G2 as (y & Hy & C2); [|fld]. rewrite Hx in Hy. injection Hy as <-. exists x. now repeat split. }
  assert (T : found "appendix_group_title" q -> found "reference_list_title" q -> False).
  { intros G1 G2. apply (found_iff _ (anywhere ["app-group"; "title"])) in G1 as (x & Hx & m & C1); [|fld]. apply (found_iff _ (at_path ["back"; "ref-list"; "title"])) in G2 as (y & Hy & r & C2); [|fld]. rewrite Hx in Hy. injection Hy as <-.
    rewrite C1 in C2. change (m ++ us ["app-group"; "title"]) with (m ++ [u "app-group"] ++ [u "title"]) in C2. rewrite app_assoc in C2. change (r :: us ["back"; "ref-list"; "title"]) with (([r; u "back"] ++ [u "ref-list"]) ++ [u "title"]) in C2.
    apply app_inj_tail in C2 as [C2 _]. apply app_inj_tail in C2 as [_ C2]. discriminate. }
  cbn [In] in P. destruct P as [P|[P|[P|[P|[]]]]]; injection P as <- <-.
  - split; [now left|now apply B].
  - split; [now right|now apply B].
  - contradiction (T F1 F2).
  - contradiction (T F2 F1).
Qed.
End Same.
Theorem C116_fulltext_fields : map u fulltext_fields = ModelArgs.default_fields ModelCommands.CFulltext.
Proof. reflexivity. Qed.

(* ---------------------------------------------------------------- *)
(** ** Examples *)
Definition el (n : string) (cs : list xml) : xml := Elem (u n) [] [] cs [].
Definition ela (n k v : string) (cs : list xml) : xml := Elem (u n) [(u k, u v)] [] cs [].
Definition ex_article : xml :=
  el "article"
    [el "front" [el "article-meta" [el "title-group" [el "article-title" []];
                                    el "contrib-group" [ela "contrib" "contrib-type" "author" [el "name" [el "surname" []]; el "aff" [el "label" []; el "institution" []]];
                                                        ela "contrib" "contrib-type" "editor" [el "name" []]];
                                    ela "kwd-group" "kwd-group-type" "research-organism" [el "kwd" []; el "kwd" []];
                                    el "article-categories" [ela "subj-group" "subj-group-type" "display-channel" [el "subject" []]];
                                    el "abstract" [el "sec" [el "title" []; el "p" []]]]];
     el "body" [el "sec" [el "title" []; el "p" [el "disp-quote" [el "fig" []]; el "fig" []; el "list" []]; el "boxed-text" [el "sec" [el "p" []]]]; el "ack" [el "p" []]];
     Misc [];
     el "back" [el "sec" [el "title" []; el "p" []; el "list" [el "list-item" [el "p" []]]]; el "ack" [el "sec" [el "title" []; el "p" []]]; el "fn-group" [el "fn" [el "p" []]];
                el "ref-list" [el "title" []; el "ref" []]]].
Definition of_field (k : string) : res (list npath) := all_xpaths (xpath_at ex_article) [] (parse_xpaths ascii_space (dict_get (u k) article)).
Example C115_ex_author : of_field "author" = Ok [[0; 0; 1; 0; 0]].
Proof. vm_compute. reflexivity. Qed.
Example C115_ex_trail : trail ex_article [0; 0; 1; 0; 0] = Some [(u "article", []); (u "front", []); (u "article-meta", []); (u "contrib-group", []); (u "contrib", [(u "contrib-type", u "author")]); (u "name", [])].
Proof. reflexivity. Qed.
Example C115_ex_paragraphs : of_field "section_paragraph" = Ok [[0; 0; 4; 0; 1]; [1; 0; 1]; [1; 0; 2; 0; 0]; [1; 1; 0]; [3; 0; 1]; [3; 1; 0; 1]]
  /\ of_field "back_section_paragraph" = Ok [[3; 0; 1]; [3; 2; 0; 0]] /\ of_field "acknowledgment_section_paragraph" = Ok [[1; 1; 0]; [3; 1; 0; 1]].
Proof. vm_compute. auto. Qed.
Example C115_ex_inner : xpath_at ex_article [0; 0; 1; 0; 1] (u "./label") = Ok [[0; 0; 1; 0; 1; 0]] /\ xpath_at ex_article [1; 0; 1] (u ".//list|fig|table-wrap") = Ok [[1; 0; 1; 1]; [1; 0; 1; 2]].
Proof. vm_compute. auto. Qed.
Example C116_ex_titles : of_field "back_section_title" = Ok [[3; 0; 0]] /\ of_field "acknowledgment_section_title" = Ok [[3; 1; 0; 0]].
Proof. vm_compute. auto. Qed.
Example C116_ex_boxed : of_field "boxed_text_paragraph" = Ok [[1; 0; 2; 0; 0]].
Proof. vm_compute. reflexivity. Qed.
Lemma ex_found k l : of_field k = Ok l -> forall q, found ascii_space ex_article k q <-> In q l.
Proof. intros E q. unfold found. fold (of_field k). rewrite E. split; [intros (l' & [= <-] & H); exact H|intros H; now exists l]. Qed.
(** A paragraph of the back may be found by neither field: it is in a list of a section. *)
Theorem C116_back_paragraphs_refuted : exists root q, (exists n a t cs tl, root = Elem n a t cs tl) /\ stands_at root (within "back" ["p"]) q /\
  ~ found ascii_space root "back_section_paragraph" q /\ ~ found ascii_space root "acknowledgment_section_paragraph" q.
Proof.
  exists ex_article, [3; 0; 2; 0; 0]. split; [repeat eexists|]. split; [|split].
  - eexists. split; [reflexivity|]. exists (u "article"), (us ["sec"; "list"; "list-item"]). reflexivity.
  - rewrite (ex_found "back_section_paragraph" [[3; 0; 1]; [3; 2; 0; 0]]) by (vm_compute; reflexivity). cbn [In]. intuition discriminate.
  - rewrite (ex_found "acknowledgment_section_paragraph" [[1; 1; 0]; [3; 1; 0; 1]]) by (vm_compute; reflexivity). cbn [In]. intuition discriminate.
Qed.
(** A paragraph of acknowledgments in the body is found by two fields. *)
Theorem C116_body_acknowledgment_refuted : exists root q, found ascii_space root "body_section_paragraph" q /\ found ascii_space root "acknowledgment_section_paragraph" q.
Proof.
  exists ex_article, [1; 1; 0]. split; (eexists; split; [vm_compute; reflexivity|]); cbn [In]; tauto.
Qed.
(** A paragraph of a section of the abstract is a paragraph of the text. *)
Theorem C116_abstract_refuted : exists root q, found ascii_space root "section_paragraph" q /\ stands_at root (at_path ["front"; "article-meta"; "abstract"; "sec"; "p"]) q.
Proof.
  exists ex_article, [0; 0; 4; 0; 1]. split; [eexists; split; [vm_compute; reflexivity|now left]|]. eexists. split; [reflexivity|]. now exists (u "article").
Qed.
(** A figure inside of a paragraph is not ignored, if it is not a child of it. *)
Theorem C116_ignored_refuted : exists root p q l, found ascii_space root "section_paragraph" p /\ dict_get (u "section_paragraph.ignore") article = Some (u ".//list|fig|table-wrap") /\
  xpath_at root p (u ".//list|fig|table-wrap") = Ok l /\ stands_at root (below_any "p" ["fig"]) q /\ (exists r, q = p ++ r) /\ ~ In q l.
Proof.
  exists ex_article, [1; 0; 1], [1; 0; 1; 0; 0], [[1; 0; 1; 1]; [1; 0; 1; 2]]. split; [eexists; split; [vm_compute; reflexivity|right; now left]|]. split; [vm_compute; reflexivity|]. split; [vm_compute; reflexivity|].
  split; [eexists; split; [reflexivity|]; exists (us ["article"; "body"; "sec"]), (us ["disp-quote"]); reflexivity|]. split; [now exists [0; 0]|]. cbn [In]. intuition discriminate.
Qed.
(** The type of a group of keywords is asked of the keyword, not of its group: a group of another type is not left out. *)
Theorem C116_keywords_refuted : exists root p q a, found ascii_space root "keywords" p /\ stands_at root (fun x => exists y, x = y ++ [(u "kwd-group", a)]) p /\ dict_get (u "kwd-group-type") a = Some (u "research-organism") /\
  exists l, xpath_at root p (u "kwd[@kwd-group-type='author-keywords' or not(@kwd-group-type)]") = Ok l /\ In q l.
Proof.
  exists ex_article, [0; 0; 2], [0; 0; 2; 0], [(u "kwd-group-type", u "research-organism")]. split; [eexists; split; [vm_compute; reflexivity|now left]|].
  split; [eexists; split; [reflexivity|]; exists [(u "article", []); (u "front", []); (u "article-meta", [])]; reflexivity|]. split; [reflexivity|]. eexists. split; [vm_compute; reflexivity|now left].
Qed.
(** The type of a group of subjects is asked of the subject, so that the subject of such a group is not found. *)
Theorem C116_manuscript_type_refuted : exists root q a n, stands_at root (fun x => exists y, x = y ++ [(u "subj-group", a); (u "subject", n)]) q /\ dict_get (u "subj-group-type") a = Some (u "display-channel") /\
  ~ found ascii_space root "manuscript_type" q.
Proof.
  exists ex_article, [0; 0; 3; 0; 0], [(u "subj-group-type", u "display-channel")], []. split; [eexists; split; [reflexivity|]; exists [(u "article", []); (u "front", []); (u "article-meta", []); (u "article-categories", [])]; reflexivity|]. split; [reflexivity|].
  rewrite (ex_found "manuscript_type" []) by (vm_compute; reflexivity). easy.
Qed.
Print Assumptions C115_fields.
Print Assumptions C115_all.
Print Assumptions C115_inner.
Print Assumptions C115_inner_all.
Print Assumptions C116_back_titles.
Print Assumptions C116_back_paragraphs.
Print Assumptions C116_parts.
Print Assumptions C116_fulltext.
Print Assumptions C116_fulltext_fields.
Print Assumptions C116_back_paragraphs_refuted.
Print Assumptions C116_body_acknowledgment_refuted.
Print Assumptions C116_abstract_refuted.
Print Assumptions C116_ignored_refuted.
Print Assumptions C116_keywords_refuted.
Print Assumptions C116_manuscript_type_refuted.
