(** C97: configuration files.  C98: the two configurations of the commands. *)
From Verif Require Import Base ModelTarget PropTarget ModelMapping PropMapping ModelJoined ModelDownload ModelJatsText ModelWordMatch ModelSegmentation PropTargets ModelIni RepoConfig.
Open Scope list_scope.
Open Scope nat_scope.

(* ---------------------------------------------------------------- *)
(** ** Specification of configuration files *)
Section Ini.
Variable sp : N -> bool.
Variable lower : str -> str.
Definition spaces (s : str) : Prop := forall x, In x s -> sp x = true.
(** lines: comments, blank ones, and those with text, which has an indentation *)
Definition comment_line (l : str) : Prop := exists x v, trimmed sp l (x :: v) /\ (x = ch_hash \/ x = ch_semicolon).
Definition text_line (l v : str) : Prop := trimmed sp l v /\ exists x r, v = x :: r /\ x <> ch_hash /\ x <> ch_semicolon.
Definition indented (l : str) (n : nat) : Prop := exists w x r, l = w ++ x :: r /\ spaces w /\ sp x = false /\ length w = n.
Definition quiet (l : str) : Prop := spaces l \/ comment_line l.
(** ["[name]"], whatever follows *)
Definition header (v name : str) : Prop := exists r, v = ch_open :: name ++ ch_close :: r /\ name <> [] /\ ~ In ch_close name.
(** ["key = value"] or ["key: value"], not a header *)
Definition option_text (v key value : str) : Prop :=
  (forall name, ~ header v name) /\
  exists name w d b, v = name ++ w ++ d :: b /\ (d = ch_eq \/ d = ch_colon) /\ ~ In ch_eq (name ++ w) /\ ~ In ch_colon (name ++ w) /\
    spaces w /\ name <> [] /\ (forall a x, name = a ++ [x] -> sp x = false) /\ key = lower name /\ trimmed sp b value.
(** lines that continue a value: those that are indented more, and blank ones *)
Inductive more (i : nat) : list str -> list str -> Prop :=
| more_nil : more i [] []
| more_comment l ls vs : comment_line l -> more i ls vs -> more i (l :: ls) vs
| more_blank l ls vs : spaces l -> more i ls vs -> more i (l :: ls) ([] :: vs)
| more_text l v n ls vs : text_line l v -> indented l n -> i < n -> more i ls vs -> more i (l :: ls) (v :: vs).
(** not indented more than the last option; [None]: there is none *)
Definition within (p : option nat) (n : nat) : Prop := match p with Some i => n <= i | None => True end.
(** the options of a section; the last argument: the indentation of the last option *)
Inductive entries : option nat -> list str -> raw -> option nat -> Prop :=
| entries_nil p : entries p [] [] p
| entries_cons p l v n key value ls vs rest es q : text_line l v -> indented l n -> within p n -> option_text v key value ->
    more n ls vs -> entries (Some n) rest es q -> entries p (l :: ls ++ rest) ((key, value :: vs) :: es) q.
Inductive sectioned : option nat -> list str -> list (str * raw) -> Prop :=
| sectioned_nil p : sectioned p [] []
| sectioned_cons p l v n name qs body rest es q fs : text_line l v -> indented l n -> within p n -> header v name ->
    Forall quiet qs -> entries None body es q -> sectioned q rest fs -> sectioned p (l :: qs ++ body ++ rest) ((name, es) :: fs).
Definition config_lines (lines : list str) (fs : list (str * raw)) : Prop :=
  exists qs rest, lines = qs ++ rest /\ Forall quiet qs /\ sectioned None rest fs.
(** the defaults may be in several places; no other section and no option is given twice *)
Definition is_default (f : str * raw) : bool := streq (fst f) DEFAULT.
Definition defaults_of (fs : list (str * raw)) : raw := concat (map snd (filter is_default fs)).
Definition others_of (fs : list (str * raw)) : list (str * raw) := filter (fun f => negb (is_default f)) fs.
Definition proper (fs : list (str * raw)) : Prop :=
  NoDup (map fst (others_of fs)) /\ NoDup (map fst (defaults_of fs)) /\ forall f, In f (others_of fs) -> NoDup (map fst (snd f)).
Definition ch_return : N := 13%N.
(** lines of a text: each ends with a line feed, a carriage return or both; the last one may end with the text *)
Definition unbroken (l : str) : Prop := ~ In ch_newline l /\ ~ In ch_return l.
Definition line_end (e after : str) : Prop := e = [ch_newline] \/ e = [ch_return; ch_newline] \/ (e = [ch_return] /\ forall s, after <> ch_newline :: s).
Inductive text_lines : str -> list str -> Prop :=
| text_nil : text_lines [] []
| text_last l : l <> [] -> unbroken l -> text_lines l [l]
| text_next l e s ls : unbroken l -> line_end e s -> text_lines s ls -> text_lines (l ++ e ++ s) (l :: ls).
(** a value: its lines, without the white space at the end *)
Definition value_is (lines : list str) (v : str) : Prop := exists w, join_with ch_newline lines = v ++ w /\ spaces w /\ forall b x, v = b ++ [x] -> sp x = false.
Definition options_are (r : raw) (o : options) : Prop := Forall2 (fun a b => fst a = fst b /\ value_is (snd a) (snd b)) r o.
(** the configuration in a text: the defaults and the sections *)
Definition config_text (text : str) (defaults : options) (sections : mapping) : Prop :=
  exists lines fs, text_lines text lines /\ config_lines lines fs /\ proper fs /\ options_are (defaults_of fs) defaults /\
    Forall2 (fun f s => fst f = fst s /\ options_are (snd f) (snd s)) (others_of fs) sections.
(** references: ["%%"] is a percent sign, ["%(name)s"] the value of an option, [depth] levels deep *)
Inductive expands (d : options) : nat -> str -> str -> Prop :=
| expands_nil k : expands d (S k) [] []
| expands_char k x s r : x <> ch_percent -> expands d (S k) s r -> expands d (S k) (x :: s) (x :: r)
| expands_percent k s r : expands d (S k) s r -> expands d (S k) (ch_percent :: ch_percent :: s) (ch_percent :: r)
| expands_plain k name v s r : name <> [] -> ~ In ch_rparen name -> dict_get (lower name) d = Some v -> ~ In ch_percent v -> expands d (S k) s r ->
    expands d (S k) (ch_percent :: ch_lparen :: name ++ ch_rparen :: 115%N :: s) (v ++ r)
| expands_deep k name v e s r : name <> [] -> ~ In ch_rparen name -> dict_get (lower name) d = Some v -> In ch_percent v -> expands d k v e -> expands d (S k) s r ->
    expands d (S k) (ch_percent :: ch_lparen :: name ++ ch_rparen :: 115%N :: s) (e ++ r).
(** the options of a section: the defaults that it does not give itself, and its own, in this order *)
Definition merged (d own : options) : options :=
  map (fun kv => (fst kv, match dict_get (fst kv) own with Some v => v | None => snd kv end)) d ++ filter (fun kv => negb (mem (fst kv) (map fst d))) own.
Definition section_items (d own items : options) : Prop :=
  Forall2 (fun kv kr => fst kv = fst kr /\ expands (merged d own) 10 (snd kv) (snd kr)) (merged d own) items.
(** a number: the fallback without the section or the option *)
Definition number_is (to_int : str -> option Z) (d : options) (sections : mapping) (section option : str) (fallback z : Z) : Prop :=
  (~ In section (map fst sections) /\ z = fallback) \/
  exists own, In (section, own) sections /\
    ((~ In option (map fst (merged d own)) /\ z = fallback) \/
     exists v r, In (option, v) (merged d own) /\ expands (merged d own) 10 v r /\ to_int r = Some z).

Hypothesis Hlower : forall s, s <> [] -> lower s <> [].

(* ---------------------------------------------------------------- *)
(** ** Proofs *)
Lemma spaces_spec s : spaces s <-> forallb sp s = true.
Proof. unfold spaces. now rewrite forallb_forall. Qed.
Lemma lstrip_spaces w s : forallb sp w = true -> lstrip sp (w ++ s) = lstrip sp s.
Proof. induction w as [|x w IH]; [reflexivity|]. cbn. intros H. apply andb_true_iff in H as [-> H]. now apply IH. Qed.
Lemma lstrip_head x s : sp x = false -> lstrip sp (x :: s) = x :: s.
Proof. intros H. cbn. now rewrite H. Qed.
Lemma trimmed_unique l v : trimmed sp l v -> strip sp l = v.
Proof.
  intros (w & w' & -> & W & W' & S1 & S2). unfold strip. rewrite (lstrip_spaces w) by exact W.
  assert (R : forallb sp (rev w') = true) by (apply forallb_forall; intros x Hx; apply in_rev in Hx; rewrite forallb_forall in W'; auto).
  destruct v as [|x v].
  - cbn [app]. assert (E : lstrip sp w' = []) by (rewrite <- (app_nil_r w'); now rewrite lstrip_spaces). rewrite E. reflexivity.
  - cbn [app]. rewrite (lstrip_head x) by (now apply (S1 x v)). rewrite app_comm_cons, rev_app_distr, lstrip_spaces by exact R.
    destruct (rev (x :: v)) as [|y r] eqn:Q; [apply (f_equal (@length N)) in Q; rewrite rev_length in Q; discriminate|].
    apply (f_equal (@rev N)) in Q. rewrite rev_involutive in Q. cbn [rev] in Q.
    rewrite lstrip_head by (now apply (S2 y (rev r))). rewrite Q. cbn [rev]. reflexivity.
Qed.
Lemma trimmed_iff l v : trimmed sp l v <-> strip sp l = v.
Proof. split; [apply trimmed_unique|intros <-; apply trimmed_strip]. Qed.
Lemma comment_spec l : comment_line l <-> is_comment (strip sp l) = true.
Proof.
  unfold comment_line. split.
  - intros (x & v & H & E). apply trimmed_iff in H. rewrite H. cbn. now destruct E as [-> | ->].
  - destruct (strip sp l) as [|x v] eqn:E; [discriminate|]. cbn. intros H. exists x, v. split; [now apply trimmed_iff|].
    apply orb_true_iff in H as [H|H]; apply N.eqb_eq in H; auto.
Qed.
Lemma text_spec l v : text_line l v <-> strip sp l = v /\ v <> [] /\ is_comment v = false.
Proof.
  unfold text_line. rewrite trimmed_iff. split.
  - intros (H & x & r & -> & N1 & N2). split; [exact H|]. split; [discriminate|]. cbn. apply N.eqb_neq in N1, N2. now rewrite N1, N2.
  - intros (H & N & C). split; [exact H|]. destruct v as [|x r]; [easy|]. exists x, r. split; [reflexivity|]. cbn in C. apply orb_false_iff in C as [C1 C2]. now rewrite N.eqb_neq in C1, C2.
Qed.
Lemma blank_spec l : spaces l <-> strip sp l = [].
Proof. rewrite spaces_spec. symmetry. apply strip_nil. Qed.
Lemma indented_fun l n : indented l n -> indent_of sp l = n.
Proof.
  intros (w & x & r & -> & W & X & <-). induction w as [|y w IH]; cbn; [now rewrite X|]. rewrite (W y) by now left. f_equal. apply IH. intros z Hz. apply W. now right.
Qed.
Lemma indented_text l v : text_line l v -> indented l (indent_of sp l).
Proof.
  intros H. apply text_spec in H as (H & N & _). assert (Q : forallb sp l = false).
  { destruct (forallb sp l) eqn:E; [|reflexivity]. apply strip_nil in E. congruence. }
  clear H N. induction l as [|x l IH]; [discriminate|]. cbn in *. destruct (sp x) eqn:E.
  - destruct (IH Q) as (w & y & r & E1 & W & Y & L). exists (x :: w), y, r. split; [now rewrite E1 at 1|]. split; [intros z [<-|Hz]; [exact E|now apply W]|]. split; [exact Y|]. cbn. now rewrite L.
  - exists [], x, l. repeat split; auto. intros z [].
Qed.
Lemma line_cases l : comment_line l \/ spaces l \/ exists v, text_line l v.
Proof.
  destruct (is_comment (strip sp l)) eqn:E; [left; now apply comment_spec|]. right. destruct (strip sp l) as [|x v] eqn:Q; [left; now apply blank_spec|].
  right. exists (x :: v). apply text_spec. repeat split; auto. discriminate.
Qed.
Lemma header_spec v name : header v name <-> section_header v = Some name.
Proof.
  unfold header, section_header. split.
  - intros (r & -> & N & C). cbn [app]. rewrite N.eqb_refl. rewrite (proj2 (cut_some ch_close _ name r)) by (now split). destruct name; [easy|reflexivity].
  - destruct v as [|x v]; [discriminate|]. destruct (N.eqb_spec x ch_open) as [-> |]; [|discriminate].
    destruct (cut ch_close v) as [[[|y h] r]|] eqn:E; [discriminate| |discriminate]. intros [= <-]. apply cut_some in E as [-> E]. exists r. repeat split; auto. discriminate.
Qed.
Lemma header_none v : (forall name, ~ header v name) <-> section_header v = None.
Proof.
  split.
  - intros H. destruct (section_header v) as [n|] eqn:E; [|reflexivity]. apply header_spec in E. now destruct (H n).
  - intros H n Hn. apply header_spec in Hn. congruence.
Qed.
Lemma delimiter_spec v a b : cut_delimiter v = Some (a, b) <-> exists d, v = a ++ d :: b /\ (d = ch_eq \/ d = ch_colon) /\ ~ In ch_eq a /\ ~ In ch_colon a.
Proof.
  revert a b. induction v as [|x v IH]; intros a b; cbn [cut_delimiter].
  - split; [discriminate|]. intros (d & E & _). destruct a; discriminate.
  - destruct (is_delimiter x) eqn:E.
    + unfold is_delimiter in E. apply orb_true_iff in E. rewrite !N.eqb_eq in E. split.
      * intros [= <- <-]. exists x. repeat split; auto.
      * intros (d & Q & D & N1 & N2). destruct a as [|y a]; [now injection Q as -> ->|]. injection Q as -> ->. exfalso. destruct E as [-> | ->]; [apply N1|apply N2]; now left.
    + unfold is_delimiter in E. apply orb_false_iff in E as [E1 E2]. apply N.eqb_neq in E1, E2. split.
      * destruct (cut_delimiter v) as [[a' b']|] eqn:Q; [|discriminate]. cbn. intros [= <- <-]. destruct (proj1 (IH a' b') eq_refl) as (d & -> & D & N1 & N2).
        exists d. repeat split; auto; intros [W|W]; auto; congruence.
      * intros (d & Q & D & N1 & N2). destruct a as [|y a]; [injection Q as -> ->; destruct D; congruence|]. injection Q as -> ->.
        rewrite (proj2 (IH a b)); [reflexivity|]. exists d. repeat split; auto; intros W; [apply N1|apply N2]; now right.
Qed.
Lemma rstrip_unique a w : spaces w -> (forall b x, a = b ++ [x] -> sp x = false) -> rstrip sp (a ++ w) = a.
Proof.
  intros W A. unfold rstrip, rstrip_by. rewrite rev_app_distr. assert (D : forall r s, spaces r -> drop_while sp (r ++ s) = drop_while sp s).
  { induction r as [|x r IH]; intros s R; [reflexivity|]. cbn. rewrite (R x) by now left. apply IH. intros z Hz. apply R. now right. }
  rewrite D by (intros x Hx; apply W; now apply in_rev). destruct (rev a) as [|x r] eqn:E.
  - cbn. apply (f_equal (@rev N)) in E. now rewrite rev_involutive in E.
  - cbn. apply (f_equal (@rev N)) in E. rewrite rev_involutive in E. cbn in E. rewrite (A _ _ E). cbn. now rewrite E.
Qed.
Lemma rstrip_split a : exists w, a = rstrip sp a ++ w /\ spaces w /\ forall b x, rstrip sp a = b ++ [x] -> sp x = false.
Proof.
  unfold rstrip, rstrip_by. assert (D : forall s, exists r, s = r ++ drop_while sp s /\ spaces r /\ forall x t, drop_while sp s = x :: t -> sp x = false).
  { induction s as [|x s (r & E & R & H)]; [exists []; repeat split; easy|]. cbn. destruct (sp x) eqn:X.
    - exists (x :: r). split; [cbn; now rewrite <- E|]. split; [intros z [<-|Hz]; [exact X|now apply R]|exact H].
    - exists []. split; [reflexivity|]. split; [easy|]. intros z t [= <- <-]. exact X. }
  destruct (D (rev a)) as (r & E & R & H). exists (rev r). split; [rewrite <- rev_app_distr, <- E; now rewrite rev_involutive|]. split; [intros x Hx; apply R; now apply in_rev|].
  intros b x Q. apply (f_equal (@rev N)) in Q. rewrite rev_involutive, rev_app_distr in Q. cbn in Q. now apply (H x (rev b)).
Qed.
Lemma option_spec v key value : option_text v key value <->
  section_header v = None /\ exists a b, cut_delimiter v = Some (a, b) /\ rstrip sp a <> [] /\ key = lower (rstrip sp a) /\ value = strip sp b.
Proof.
  unfold option_text. rewrite header_none. split.
  - intros (H & name & w & d & b & -> & D & N1 & N2 & W & Ne & L & -> & T). split; [exact H|]. exists (name ++ w), b.
    split; [apply delimiter_spec; exists d; rewrite <- app_assoc; auto|]. rewrite (rstrip_unique name w W L). apply trimmed_iff in T. auto.
  - intros (H & a & b & C & Ne & -> & ->). split; [exact H|]. apply delimiter_spec in C as (d & -> & D & N1 & N2). destruct (rstrip_split a) as (w & E & W & L).
    exists (rstrip sp a), w, d, b. rewrite <- E. rewrite app_assoc, <- E. repeat split; auto. apply trimmed_strip.
Qed.

(** one line *)
Lemma read_comment st l : comment_line l -> read_line sp lower st l = Ok st.
Proof. intros H. apply comment_spec in H. unfold read_line. now rewrite H. Qed.
Lemma read_blank st l : spaces l -> read_line sp lower st l =
  match is_section st, is_option st with Some s, Some ((_ :: _) as o) => Ok (append_line st s o []) | _, _ => Ok st end.
Proof. intros H. apply blank_spec in H. unfold read_line. now rewrite H. Qed.
Lemma read_more st l v s o : text_line l v -> is_section st = Some s -> is_option st = Some o -> o <> [] -> is_indent st < indent_of sp l ->
  read_line sp lower st l = Ok (append_line st s o v).
Proof.
  intros H Hs Ho Hn Hi. apply text_spec in H as (H & N & C). unfold read_line. rewrite H, C, Hs, Ho. destruct v; [easy|]. destruct o; [easy|].
  apply Nat.ltb_lt in Hi. now rewrite Hi.
Qed.
(** the option that is open, if any, is not continued by a line with this indentation *)
Definition stopped (p : option nat) (st : ini_state) : Prop :=
  match p with
  | None => is_option st = None
  | Some i => (exists s o, is_section st = Some s /\ is_option st = Some o /\ o <> []) /\ is_indent st = i
  end.
Lemma read_new p st l v n : text_line l v -> indented l n -> stopped p st -> within p n ->
  read_line sp lower st l =
    match section_header v with
    | Some name => if streq name DEFAULT then Ok (mkIni (is_all st) (Some name) None n)
        else match dict_get name (is_all st) with Some _ => Err RuntimeError | None => Ok (mkIni (is_all st ++ [(name, [])]) (Some name) None n) end
    | None => match is_section st with
        | None => Err RuntimeError
        | Some s => match cut_delimiter v with
            | None => Err RuntimeError
            | Some (before, after) => match rstrip sp before with
                | [] => Err RuntimeError
                | name => match dict_get (lower name) (raw_of (is_all st) s) with
                    | Some _ => Err RuntimeError
                    | None => Ok (mkIni (dict_set s (dict_set (lower name) [strip sp after] (raw_of (is_all st) s)) (is_all st)) (Some s) (Some (lower name)) n)
                    end
                end
            end
        end
    end.
Proof.
  intros H Hi Hs Hw. apply indented_fun in Hi. apply text_spec in H as (H & N & C). unfold read_line. rewrite H, C, Hi. destruct v as [|x v]; [easy|].
  destruct p as [i|]; cbn in Hs, Hw.
  - destruct Hs as [(s & o & -> & -> & No) <-]. apply Nat.ltb_ge in Hw. rewrite Hw. destruct o; [easy|]. reflexivity.
  - rewrite Hs. destruct (is_section st); reflexivity.
Qed.
(** dictionaries *)
Lemma get_there {A} k (v : A) pre post : ~ In k (map fst pre) -> dict_get k (pre ++ (k, v) :: post) = Some v.
Proof.
  induction pre as [|[k' v'] pre IH]; cbn; intros H; [now rewrite streq_refl|]. destruct (streq k k') eqn:E; [apply streq_true in E; subst; destruct H; now left|]. apply IH. intros W. apply H. now right.
Qed.
Lemma set_there {A} k (v v0 : A) pre post : ~ In k (map fst pre) -> dict_set k v (pre ++ (k, v0) :: post) = pre ++ (k, v) :: post.
Proof.
  induction pre as [|[k' v'] pre IH]; cbn; intros H; [now rewrite streq_refl|]. destruct (streq k k') eqn:E; [apply streq_true in E; subst; destruct H; now left|]. f_equal. apply IH. intros W. apply H. now right.
Qed.
Lemma get_none {A} k (d : list (str * A)) : dict_get k d = None <-> ~ In k (map fst d).
Proof.
  induction d as [|[k' v'] d IH]; cbn; [easy|]. destruct (streq k k') eqn:E.
  - apply streq_true in E. subst. split; [discriminate|]. intros H. destruct H. now left.
  - rewrite IH. apply streq_false in E. split; [intros H [W|W]; [congruence|auto]|intros H W; apply H; now right].
Qed.
Lemma set_new {A} k (v : A) d : ~ In k (map fst d) -> dict_set k v d = d ++ [(k, v)].
Proof.
  induction d as [|[k' v'] d IH]; cbn; intros H; [reflexivity|]. destruct (streq k k') eqn:E; [apply streq_true in E; subst; destruct H; now left|]. f_equal. apply IH. intros W. apply H. now right.
Qed.
Lemma foldM_app {A B} (f : B -> A -> res B) l : forall b l', foldM f b (l ++ l') = do b' <- foldM f b l ;; foldM f b' l'.
Proof. induction l as [|x l IH]; intros b l'; [reflexivity|]. cbn. destruct (f b x); [apply IH|reflexivity]. Qed.
(** lines of a value *)
Lemma more_run i ls vs : more i ls vs -> forall pre s r0 o x post, o <> [] -> ~ In s (map fst pre) -> ~ In o (map fst r0) ->
  foldM (read_line sp lower) (mkIni (pre ++ (s, r0 ++ [(o, x)]) :: post) (Some s) (Some o) i) ls = Ok (mkIni (pre ++ (s, r0 ++ [(o, x ++ vs)]) :: post) (Some s) (Some o) i).
Proof.
  assert (A : forall pre s (r0 : raw) o x post v, ~ In s (map fst pre) -> ~ In o (map fst r0) ->
    append_line (mkIni (pre ++ (s, r0 ++ [(o, x)]) :: post) (Some s) (Some o) i) s o v = mkIni (pre ++ (s, r0 ++ [(o, x ++ [v])]) :: post) (Some s) (Some o) i).
  { intros pre s r0 o x post v H1 H2. unfold append_line. cbn [is_all is_section is_option is_indent]. unfold raw_of. rewrite get_there by exact H1. rewrite get_there by exact H2. now rewrite set_there, set_there. }
  induction 1 as [|l ls vs H M IH|l ls vs H M IH|l v n ls vs H Hi Hn M IH]; intros pre s r0 o x post No Hs Ho; cbn [foldM].
  - now rewrite app_nil_r.
  - rewrite read_comment by exact H. cbn [bind]. now apply IH.
  - rewrite read_blank by exact H. cbn [is_section is_option]. destruct o as [|o0 o]; [easy|]. cbn [bind]. rewrite A by assumption. rewrite IH by assumption. now rewrite <- app_assoc.
  - rewrite (read_more (mkIni (pre ++ (s, r0 ++ [(o, x)]) :: post) (Some s) (Some o) i) l v s o H eq_refl eq_refl No) by (cbn; apply indented_fun in Hi; lia). cbn [bind]. rewrite A by assumption. rewrite IH by assumption. now rewrite <- app_assoc.
Qed.
Lemma quiet_run qs : Forall quiet qs -> forall st, is_option st = None -> foldM (read_line sp lower) st qs = Ok st.
Proof.
  induction 1 as [|l qs H Q IH]; intros st Ho; [reflexivity|]. cbn [foldM]. assert (E : read_line sp lower st l = Ok st).
  { destruct H as [H|H]; [rewrite read_blank by exact H; rewrite Ho; now destruct (is_section st)|now apply read_comment]. }
  rewrite E. cbn [bind]. now apply IH.
Qed.
Lemma NoDup_snoc {A} (l : list A) x : NoDup l -> ~ In x l -> NoDup (l ++ [x]).
Proof. intros H N. apply (Permutation.Permutation_NoDup (l := x :: l)); [apply Permutation.Permutation_cons_append|now constructor]. Qed.
Lemma NoDup_left {A} (l m : list A) : NoDup (l ++ m) -> NoDup l.
Proof. induction l as [|x l IH]; [constructor|]. cbn. intros H. inversion H; subst. constructor; [|now apply IH]. intros W. apply H2. apply in_or_app. now left. Qed.
Lemma NoDup_mid {A} (l m : list A) x : NoDup (l ++ x :: m) -> ~ In x l.
Proof. intros H W. apply NoDup_remove_2 in H. apply H. apply in_or_app. now left. Qed.
(** options of a section *)
Lemma entries_run p body es q : entries p body es q -> forall st pre s r post, stopped p st -> is_section st = Some s -> is_all st = pre ++ (s, r) :: post -> ~ In s (map fst pre) -> NoDup (map fst r) ->
  (NoDup (map fst (r ++ es)) -> exists st', foldM (read_line sp lower) st body = Ok st' /\ is_all st' = pre ++ (s, r ++ es) :: post /\ is_section st' = Some s /\ stopped q st')
  /\ (forall st', foldM (read_line sp lower) st body = Ok st' -> NoDup (map fst (r ++ es))).
Proof.
  induction 1 as [p|p l v n key value ls vs rest es q Hl Hi Hw Ho Hm He IH]; intros st pre s r post Hst Hs Ha Hp Hr.
  - rewrite app_nil_r. split; [|auto]. intros _. exists st. repeat split; auto.
  - apply option_spec in Ho as (Hh & a & b & Hc & Hn & -> & ->).
    assert (E : read_line sp lower st l = match dict_get (lower (rstrip sp a)) r with Some _ => Err RuntimeError
        | None => Ok (mkIni (pre ++ (s, r ++ [(lower (rstrip sp a), [strip sp b])]) :: post) (Some s) (Some (lower (rstrip sp a))) n) end).
    { rewrite (read_new p st l v n Hl Hi Hst Hw), Hh, Hs, Hc. destruct (rstrip sp a) as [|x a'] eqn:Ea; [easy|]. unfold raw_of. rewrite Ha, get_there by exact Hp.
      destruct (dict_get (lower (x :: a')) r) eqn:G; [reflexivity|]. apply get_none in G. rewrite set_there by exact Hp. now rewrite (set_new _ _ r G). }
    set (key := lower (rstrip sp a)) in *. assert (Nk : key <> []) by now apply Hlower.
    assert (F : foldM (read_line sp lower) st (l :: ls ++ rest) = match dict_get key r with Some _ => Err RuntimeError
        | None => foldM (read_line sp lower) (mkIni (pre ++ (s, r ++ [(key, strip sp b :: vs)]) :: post) (Some s) (Some key) n) rest end).
    { cbn [foldM]. rewrite E. destruct (dict_get key r) eqn:G; [reflexivity|]. cbn [bind]. rewrite foldM_app. apply get_none in G.
      pose proof (more_run n ls vs Hm pre s r key [strip sp b] post Nk Hp G) as MR.
      match goal with |- context [foldM ?f ?x ls] => replace (foldM f x ls) with (Ok (mkIni (pre ++ (s, r ++ [(key, strip sp b :: vs)]) :: post) (Some s) (Some key) n)) by (symmetry; exact MR) end. reflexivity. }
    rewrite F. replace (r ++ (key, strip sp b :: vs) :: es) with ((r ++ [(key, strip sp b :: vs)]) ++ es) by (now rewrite <- app_assoc). split.
    + intros Hd. assert (G : ~ In key (map fst r)). { rewrite !map_app, <- app_assoc in Hd. cbn in Hd. now apply NoDup_mid in Hd. }
      rewrite (proj2 (get_none key r) G). apply (IH (mkIni (pre ++ (s, r ++ [(key, strip sp b :: vs)]) :: post) (Some s) (Some key) n) pre s (r ++ [(key, strip sp b :: vs)]) post); auto.
      * cbn. split; [|reflexivity]. now exists s, key.
      * rewrite map_app. now apply NoDup_snoc.
    + intros st' H. destruct (dict_get key r) eqn:G; [discriminate|]. apply get_none in G.
      refine (proj2 (IH (mkIni (pre ++ (s, r ++ [(key, strip sp b :: vs)]) :: post) (Some s) (Some key) n) pre s (r ++ [(key, strip sp b :: vs)]) post _ _ _ _ _) st' H); auto.
      * cbn. split; [|reflexivity]. now exists s, key.
      * rewrite map_app. now apply NoDup_snoc.
Qed.
(** sections, after the sections [secs] and the defaults [d] *)
Definition proper_after (d : raw) (secs fs : list (str * raw)) : Prop :=
  NoDup (map fst (secs ++ others_of fs)) /\ NoDup (map fst (d ++ defaults_of fs)) /\ forall f, In f (others_of fs) -> NoDup (map fst (snd f)).
Lemma sectioned_run p lines fs : sectioned p lines fs -> forall st d secs, stopped p st -> is_all st = (DEFAULT, d) :: secs -> ~ In DEFAULT (map fst secs) -> NoDup (map fst d) -> NoDup (map fst secs) ->
  (proper_after d secs fs -> exists st', foldM (read_line sp lower) st lines = Ok st' /\ is_all st' = (DEFAULT, d ++ defaults_of fs) :: secs ++ others_of fs)
  /\ (forall st', foldM (read_line sp lower) st lines = Ok st' -> proper_after d secs fs).
Proof.
  induction 1 as [p|p l v n name qs body rest es q fs Hl Hi Hw Hh Hq He Hf IH]; intros st d secs Hst Ha Hd Nd Ns.
  - unfold proper_after. cbn [others_of defaults_of filter map concat]. rewrite !app_nil_r. split; [|intros st' _; repeat split; auto; easy]. intros _. exists st. now split.
  - apply header_spec in Hh. pose proof (read_new p st l v n Hl Hi Hst Hw) as E. rewrite Hh in E.
    assert (F : forall st1, read_line sp lower st l = Ok st1 -> is_option st1 = None -> foldM (read_line sp lower) st (l :: qs ++ body ++ rest) = do st2 <- foldM (read_line sp lower) st1 body ;; foldM (read_line sp lower) st2 rest).
    { intros st1 E1 O1. cbn [foldM]. rewrite E1. cbn [bind]. rewrite foldM_app, (quiet_run qs Hq st1 O1). cbn [bind]. apply foldM_app. }
    destruct (streq name DEFAULT) eqn:Ed.
    + apply streq_true in Ed. subst name.
      assert (Ef : forall g, defaults_of ((DEFAULT, es) :: g) = es ++ defaults_of g /\ others_of ((DEFAULT, es) :: g) = others_of g) by (intros g; unfold defaults_of, others_of, is_default; cbn [filter fst]; rewrite streq_refl; now split).
      destruct (Ef fs) as [Ef1 Ef2]. unfold proper_after. rewrite Ef1, Ef2. rewrite (F _ E eq_refl).
      destruct (entries_run None body es q He (mkIni (is_all st) (Some DEFAULT) None n) [] DEFAULT d secs eq_refl eq_refl Ha (fun x => x) Nd) as [R1 R2]. split.
      * intros (P1 & P2 & P3). assert (P2' : NoDup (map fst (d ++ es))) by (rewrite app_assoc, map_app in P2; now apply NoDup_left in P2).
        destruct (R1 P2') as (st2 & G1 & G2 & G3 & G4). rewrite G1. cbn [bind]. destruct (IH st2 (d ++ es) secs G4 G2 Hd P2' Ns) as [I1 _].
        rewrite app_assoc. apply I1. repeat split; auto. now rewrite <- app_assoc.
      * intros st' H. destruct (foldM (read_line sp lower) _ body) as [st2|] eqn:G1; [|discriminate]. cbn [bind] in H. specialize (R2 st2 eq_refl).
        destruct (R1 R2) as (st2' & [= <-] & G2 & G3 & G4). destruct (IH st2 (d ++ es) secs G4 G2 Hd R2 Ns) as [_ I2]. destruct (I2 st' H) as (P1 & P2 & P3). repeat split; auto. now rewrite app_assoc.
    + apply streq_false in Ed as Ed'.
      assert (Ef : defaults_of ((name, es) :: fs) = defaults_of fs /\ others_of ((name, es) :: fs) = (name, es) :: others_of fs) by (unfold defaults_of, others_of, is_default; cbn [filter fst]; rewrite Ed; now split).
      destruct Ef as [Ef1 Ef2]. unfold proper_after. rewrite Ef1, Ef2. destruct (dict_get name (is_all st)) as [x|] eqn:G.
      * split.
        -- intros (P1 & _). exfalso. assert (W : ~ In name (map fst (is_all st))).
           { rewrite Ha. cbn. intros [W|W]; [now apply Ed'|]. rewrite map_app in P1. cbn in P1. apply NoDup_mid in P1. contradiction. }
           apply get_none in W. congruence.
        -- intros st' H. cbn [foldM] in H. rewrite E in H. discriminate.
      * apply get_none in G. rewrite Ha in G. cbn in G. assert (G' : ~ In name (map fst secs)) by (intros W; apply G; now right).
        rewrite (F _ E eq_refl). destruct (entries_run None body es q He (mkIni (is_all st ++ [(name, [])]) (Some name) None n) ((DEFAULT, d) :: secs) name [] [] eq_refl eq_refl) as [R1 R2]; [cbn; now rewrite Ha|exact G|constructor|].
        cbn [app] in R1, R2. assert (Ns' : NoDup (map fst (secs ++ [(name, es)]))) by (rewrite map_app; now apply NoDup_snoc).
        assert (Hd' : ~ In DEFAULT (map fst (secs ++ [(name, es)]))) by (rewrite map_app, in_app_iff; cbn; intros [W|[W|[]]]; [contradiction|now apply Ed']).
        split.
        -- intros (P1 & P2 & P3). destruct (R1 (P3 (name, es) (or_introl eq_refl))) as (st2 & G1 & G2 & G3 & G4). rewrite G1. cbn [bind].
           destruct (IH st2 d (secs ++ [(name, es)]) G4 G2 Hd' Nd Ns') as [I1 _]. rewrite <- app_assoc in I1. apply I1. repeat split; auto; [now rewrite <- app_assoc|]. intros f Hf'. apply P3. now right.
        -- intros st' H. destruct (foldM (read_line sp lower) _ body) as [st2|] eqn:G1; [|discriminate]. cbn [bind] in H. specialize (R2 st2 eq_refl).
           destruct (R1 R2) as (st2' & [= <-] & G2 & G3 & G4). destruct (IH st2 d (secs ++ [(name, es)]) G4 G2 Hd' Nd Ns') as [_ I2]. destruct (I2 st' H) as (P1 & P2 & P3).
           repeat split; auto; [now rewrite <- app_assoc in P1|]. intros f [<-|Hf']; [exact R2|now apply P3].
Qed.
(** every text that is read has this form *)
Definition shape (p : option nat) (st : ini_state) (lines : list str) : Prop :=
  match is_section st, p with
  | None, _ => exists qs rest fs, lines = qs ++ rest /\ Forall quiet qs /\ sectioned None rest fs
  | Some _, None => exists qs body rest es q fs, lines = qs ++ body ++ rest /\ Forall quiet qs /\ entries None body es q /\ sectioned q rest fs
  | Some _, Some i => exists ls vs body rest es q fs, lines = ls ++ body ++ rest /\ more i ls vs /\ entries (Some i) body es q /\ sectioned q rest fs
  end.
Lemma shape_spec lines : forall p st st', stopped p st -> foldM (read_line sp lower) st lines = Ok st' -> shape p st lines.
Proof.
  induction lines as [|l lines IH]; intros p st st' Hst H.
  - unfold shape. destruct (is_section st) as [s|].
    + destruct p as [i|]; [exists [], [], [], [], [], (Some i), []|exists [], [], [], [], None, []]; repeat split; constructor.
    + exists [], [], []. repeat split; constructor.
  - cbn [foldM] in H. destruct (read_line sp lower st l) as [st1|] eqn:E; [|discriminate]. cbn [bind] in H.
    destruct (line_cases l) as [C|[C|[v C]]].
    + rewrite read_comment in E by exact C. injection E as <-. specialize (IH p st st' Hst H). unfold shape in *. destruct (is_section st) as [s|].
      * destruct p as [i|].
        -- destruct IH as (ls & vs & body & rest & es & q & fs & -> & M & W). exists (l :: ls), vs, body, rest, es, q, fs. split; [reflexivity|]. split; [now constructor|exact W].
        -- destruct IH as (qs & body & rest & es & q & fs & -> & Q & W). exists (l :: qs), body, rest, es, q, fs. split; [reflexivity|]. split; [constructor; [now right|exact Q]|exact W].
      * destruct IH as (qs & rest & fs & -> & Q & W). exists (l :: qs), rest, fs. split; [reflexivity|]. split; [constructor; [now right|exact Q]|exact W].
    + rewrite read_blank in E by exact C. destruct p as [i|].
      * destruct Hst as [(s & o & Hs & Ho & No) Hi]. rewrite Hs, Ho in E. destruct o as [|o0 o]; [easy|]. injection E as <-.
        assert (S1 : stopped (Some i) (append_line st s (o0 :: o) [])) by (split; [exists s, (o0 :: o); now split|exact Hi]).
        specialize (IH (Some i) _ st' S1 H). unfold shape in *. cbn [is_section append_line] in IH. rewrite Hs in *.
        destruct IH as (ls & vs & body & rest & es & q & fs & -> & M & W). exists (l :: ls), ([] :: vs), body, rest, es, q, fs. split; [reflexivity|]. split; [now constructor|exact W].
      * cbn in Hst. rewrite Hst in E. assert (E' : st1 = st) by (destruct (is_section st); congruence). subst st1. specialize (IH None st st' Hst H). unfold shape in *. destruct (is_section st) as [s|].
        -- destruct IH as (qs & body & rest & es & q & fs & -> & Q & W). exists (l :: qs), body, rest, es, q, fs. split; [reflexivity|]. split; [constructor; [now left|exact Q]|exact W].
        -- destruct IH as (qs & rest & fs & -> & Q & W). exists (l :: qs), rest, fs. split; [reflexivity|]. split; [constructor; [now left|exact Q]|exact W].
    + pose proof (indented_text l v C) as Hi. set (n := indent_of sp l) in *.
      assert (D : (exists i, p = Some i /\ i < n) \/ within p n).
      { destruct p as [i|]; [|now right]. destruct (Nat.lt_ge_cases i n); [left; now exists i|now right]. }
      destruct D as [(i & -> & Hn)|Hw].
      * destruct Hst as [(s & o & Hs & Ho & No) Hin]. rewrite (read_more st l v s o C Hs Ho No) in E by (now rewrite Hin). injection E as <-.
        assert (S1 : stopped (Some i) (append_line st s o v)) by (split; [exists s, o; now split|exact Hin]).
        specialize (IH (Some i) _ st' S1 H). unfold shape in *. cbn [is_section append_line] in IH. rewrite Hs in *.
        destruct IH as (ls & vs & body & rest & es & q & fs & -> & M & W). exists (l :: ls), (v :: vs), body, rest, es, q, fs. split; [reflexivity|]. split; [now apply (more_text i l v n)|exact W].
      * rewrite (read_new p st l v n C Hi Hst Hw) in E. destruct (section_header v) as [name|] eqn:Eh.
        -- assert (S1 : stopped None st1 /\ is_section st1 = Some name).
           { destruct (streq name DEFAULT); [injection E as <-; now split|]. destruct (dict_get name (is_all st)); [discriminate|]. injection E as <-. now split. }
           destruct S1 as [S1 S2]. specialize (IH None st1 st' S1 H). unfold shape in IH. rewrite S2 in IH. destruct IH as (qs & body & rest & es & q & fs & -> & Q & En & Se).
           assert (T : sectioned p (l :: qs ++ body ++ rest) ((name, es) :: fs)) by (apply (sectioned_cons p l v n name qs body rest es q fs); auto; now apply header_spec).
           unfold shape. destruct (is_section st) as [s|] eqn:Es.
           ++ destruct p as [i|].
              ** exists [], [], [], (l :: qs ++ body ++ rest), [], (Some i), ((name, es) :: fs). repeat split; auto; constructor.
              ** exists [], [], (l :: qs ++ body ++ rest), [], None, ((name, es) :: fs). repeat split; auto; constructor.
           ++ destruct p as [i|]; [destruct Hst as [(s & o & Hs & _) _]; congruence|]. exists [], (l :: qs ++ body ++ rest), ((name, es) :: fs). repeat split; auto.
        -- destruct (is_section st) as [s|] eqn:Es; [|discriminate]. destruct (cut_delimiter v) as [[a b]|] eqn:Ec; [|discriminate].
           destruct (rstrip sp a) as [|x a'] eqn:Ea; [discriminate|]. cbv zeta in E. match type of E with match ?X with _ => _ end = _ => destruct X; [discriminate|] end. injection E as <-.
           set (key := lower (x :: a')) in *. assert (Nk : key <> []) by now apply Hlower.
           match type of H with foldM _ ?t _ = _ => assert (S1 : stopped (Some n) t) by (split; [exists s, key; now split|reflexivity]); specialize (IH (Some n) t st' S1 H) end.
           unfold shape in IH. cbn [is_section] in IH. destruct IH as (ls & vs & body & rest & es & q & fs & -> & M & En & Se).
           assert (T : entries p (l :: ls ++ body) ((key, strip sp b :: vs) :: es) q).
           { apply (entries_cons p l v n key (strip sp b) ls vs body es q); auto. apply option_spec. split; [exact Eh|]. exists a, b. repeat split; auto; [now rewrite Ea|now rewrite Ea]. }
           unfold shape. rewrite Es. destruct p as [i|].
           ++ exists [], [], (l :: ls ++ body), rest, ((key, strip sp b :: vs) :: es), q, fs. repeat split; auto; [cbn; now rewrite <- app_assoc|constructor].
           ++ exists [], (l :: ls ++ body), rest, ((key, strip sp b :: vs) :: es), q, fs. repeat split; auto. cbn. now rewrite <- app_assoc.
Qed.
Theorem C97_lines lines all :
  (exists st, foldM (read_line sp lower) empty_ini lines = Ok st /\ is_all st = all) <->
  exists fs, config_lines lines fs /\ proper fs /\ all = (DEFAULT, defaults_of fs) :: others_of fs.
Proof.
  assert (R : forall lines fs, config_lines lines fs ->
    (proper fs -> exists st, foldM (read_line sp lower) empty_ini lines = Ok st /\ is_all st = (DEFAULT, defaults_of fs) :: others_of fs)
    /\ (forall st, foldM (read_line sp lower) empty_ini lines = Ok st -> proper fs)).
  { clear lines all. intros lines fs (qs & rest & -> & Q & S). rewrite foldM_app, (quiet_run qs Q empty_ini eq_refl). cbn [bind].
    exact (sectioned_run None rest fs S empty_ini [] [] eq_refl eq_refl (fun x => x) (NoDup_nil _) (NoDup_nil _)). }
  split.
  - intros (st & H & <-). pose proof (shape_spec lines None empty_ini st eq_refl H) as (qs & rest & fs & -> & Q & S).
    destruct (R (qs ++ rest) fs) as [R1 R2]; [now exists qs, rest|]. exists fs. split; [now exists qs, rest|]. specialize (R2 st H). split; [exact R2|]. destruct (R1 R2) as (st2 & H2 & <-). congruence.
  - intros (fs & C & P & ->). now apply (R lines fs C).
Qed.

(** texts *)
Lemma universal_plain l s : ~ In ch_return l -> universal (l ++ s) = l ++ universal s.
Proof.
  induction l as [|x l IH]; intros H; [reflexivity|]. cbn. destruct (N.eqb_spec x 13) as [-> |]; [destruct H; now left|]. f_equal. apply IH. intros W. apply H. now right.
Qed.
Lemma universal_end e s : line_end e s -> universal (e ++ s) = ch_newline :: universal s.
Proof.
  intros [->|[->|[-> H]]]; [reflexivity|reflexivity|]. cbn. f_equal. destruct s as [|x s]; [reflexivity|]. destruct (N.eqb_spec x 10) as [-> |N]; [destruct (H s); reflexivity|].
  repeat match goal with |- context [match ?p with _ => _ end] => is_var p; destruct p; try reflexivity end. now destruct N.
Qed.
Definition closed (l : list str) : list str := match rev l with [] :: r => rev r | _ => l end.
Lemma closed_cons l ls : ls <> [] -> closed (l :: ls) = l :: closed ls.
Proof.
  intros H. unfold closed. cbn [rev]. destruct (rev ls) as [|x r] eqn:E; [apply (f_equal (@rev str)) in E; rewrite rev_involutive in E; easy|].
  cbn [app]. destruct x; [|reflexivity]. rewrite rev_app_distr. reflexivity.
Qed.
Lemma text_unique text ls : text_lines text ls -> file_lines text = ls.
Proof.
  unfold file_lines. fold (closed (split_on ch_newline (universal text))). induction 1 as [|l N [U1 U2]|l e s ls [U1 U2] E T IH]; [reflexivity| |].
  - assert (Q : universal l = l) by (rewrite <- (app_nil_r l) at 1; rewrite universal_plain by exact U2; apply app_nil_r). rewrite Q, split_on_nosep by exact U1. unfold closed. cbn. destruct l; [easy|reflexivity].
  - rewrite universal_plain by exact U2. rewrite (universal_end e s E), split_on_app by exact U1. rewrite closed_cons by apply split_on_ne. now rewrite IH.
Qed.
Lemma text_exists n : forall text, length text <= n -> exists ls, text_lines text ls.
Proof.
  induction n as [|n IH]; intros text L; [destruct text; [exists []; constructor|cbn in L; lia]|].
  assert (D : unbroken text \/ exists l e s, text = l ++ e ++ s /\ unbroken l /\ line_end e s).
  { clear. induction text as [|x text IH]; [left; split; intros []|]. destruct (N.eqb_spec x ch_newline) as [-> |N1].
    - right. exists [], [ch_newline], text. repeat split; try easy. now left.
    - destruct (N.eqb_spec x ch_return) as [-> |N2].
      + right. destruct text as [|y text]; [exists [], [ch_return], []; repeat split; try easy; right; right; now split|].
        destruct (N.eqb_spec y ch_newline) as [-> |N3]; [exists [], [ch_return; ch_newline], text; repeat split; try easy; right; now left|].
        exists [], [ch_return], (y :: text). repeat split; try easy. right. right. split; [reflexivity|]. intros s [= W _]. contradiction.
      + destruct IH as [[U1 U2]|(l & e & s & -> & [U1 U2] & E)].
        * left. split; intros [W|W]; auto.
        * right. exists (x :: l), e, s. repeat split; auto; intros [W|W]; auto. }
  destruct D as [U|(l & e & s & -> & U & E)].
  - destruct text as [|x text]; [exists []; constructor|]. exists [x :: text]. now constructor.
  - destruct (IH s) as [ls T]; [|exists (l :: ls); now constructor]. rewrite !app_length in L. destruct E as [->|[->|[-> _]]]; cbn in L; lia.
Qed.
Lemma text_spec' text ls : text_lines text ls <-> file_lines text = ls.
Proof. split; [apply text_unique|intros <-]. destruct (text_exists (length text) text (le_n _)) as [ls T]. now rewrite (text_unique _ _ T). Qed.
Lemma join_str_with d l : join_str [d] l = join_with d l.
Proof. induction l as [|x l IH]; [reflexivity|]. destruct l as [|y l]; [reflexivity|]. change (x ++ [d] ++ join_str [d] (y :: l) = x ++ d :: join_with d (y :: l)). now rewrite IH. Qed.
Lemma value_spec lines v : value_is lines v <-> join_lines sp lines = v.
Proof.
  unfold join_lines, value_is. rewrite join_str_with. split; [intros (w & -> & W & H); now apply rstrip_unique|]. intros <-. apply rstrip_split.
Qed.
Lemma options_spec (r : raw) o : options_are r o <-> map (fun o => (fst o, join_lines sp (snd o))) r = o.
Proof.
  split.
  - induction 1 as [|[k ls] [k' v] r o [E V] F IH]; [reflexivity|]. cbn [fst snd map] in *. subst. apply value_spec in V. now rewrite V.
  - intros <-. induction r as [|[k ls] r IH]; constructor; auto. split; [reflexivity|]. now apply value_spec.
Qed.
Lemma sections_spec (fs : list (str * raw)) m : Forall2 (fun f s => fst f = fst s /\ options_are (snd f) (snd s)) fs m <->
  map (fun section => (fst section, map (fun o => (fst o, join_lines sp (snd o))) (snd section))) fs = m.
Proof.
  split.
  - induction 1 as [|[k r] [k' o] fs m [E V] F IH]; [reflexivity|]. cbn [fst snd map] in *. subst. apply options_spec in V. now rewrite V.
  - intros <-. induction fs as [|[k ls] fs IH]; constructor; auto. split; [reflexivity|]. now apply options_spec.
Qed.
Theorem C97_text text m : read_ini sp lower text = Ok m <-> exists d sections, config_text text d sections /\ m = (DEFAULT, d) :: sections.
Proof.
  unfold read_ini. split.
  - intros H. destruct (foldM (read_line sp lower) empty_ini (file_lines text)) as [st|] eqn:E; [|discriminate]. cbn [bind] in H. injection H as <-.
    destruct (proj1 (C97_lines (file_lines text) (is_all st)) (ex_intro _ st (conj E eq_refl))) as (fs & C & P & ->). cbn [map fst snd].
    eexists _, _. split; [|reflexivity]. exists (file_lines text), fs. split; [now apply text_spec'|]. split; [exact C|]. split; [exact P|]. split; [now apply options_spec|now apply sections_spec].
  - intros (d & secs & (lines & fs & T & C & P & D & S) & ->). apply text_spec' in T. subst lines.
    destruct (proj2 (C97_lines (file_lines text) _) (ex_intro _ fs (conj C (conj P eq_refl)))) as (st & E & A). rewrite E. cbn [bind]. rewrite A. cbn [map fst snd].
    apply options_spec in D. apply sections_spec in S. now rewrite D, S.
Qed.
(** references *)
Lemma reference_spec s name rest : reference_at s = Some (name, rest) <-> s = ch_percent :: ch_lparen :: name ++ ch_rparen :: 115%N :: rest /\ name <> [] /\ ~ In ch_rparen name.
Proof.
  split.
  - unfold reference_at. destruct s as [|x [|y s]]; [discriminate|discriminate|]. destruct (N.eqb_spec x ch_percent) as [-> |]; [|discriminate]. destruct (N.eqb_spec y ch_lparen) as [-> |]; [|discriminate]. cbn [andb].
    destruct (cut ch_rparen s) as [[[|a nm] r]|] eqn:E; [discriminate| |discriminate]. apply cut_some in E as [-> E]. destruct r as [|z r]; [discriminate|].
    destruct (N.eqb_spec z 115) as [-> |N].
    + intros [= <- <-]. repeat split; auto. discriminate.
    + intros H. exfalso. revert H. repeat match goal with |- context [match ?p with _ => _ end] => is_var p; destruct p; try discriminate end. now destruct N.
  - intros (-> & N & C). unfold reference_at. rewrite !N.eqb_refl. cbn [andb]. rewrite (proj2 (cut_some ch_rparen _ name (115%N :: rest))) by (now split). now destruct name.
Qed.
Lemma interpolate_spec d depth : forall s r, interpolate lower d depth s = Ok r <-> expands d depth s r.
Proof.
  induction depth as [|k IHk]; intros s r; [split; [discriminate|inversion 1]|]. cbn [interpolate].
  assert (L : forall n s r, length s < n -> interpolate_loop lower d (interpolate lower d k) n s = Ok r <-> expands d (S k) s r); [|apply L; lia].
  clear s r. induction n as [|n IH]; intros s r H; [lia|]. cbn [interpolate_loop]. destruct s as [|x s1]; [split; [intros [= <-]; constructor|intros E; now inversion E]|].
  cbn [length] in H. destruct (N.eqb_spec x ch_percent) as [-> |Nx]; cbn [negb].
  2:{ split.
      - intros E. destruct (interpolate_loop lower d (interpolate lower d k) n s1) as [r1|] eqn:E1; [|discriminate]. cbn [bind] in E. injection E as <-. constructor; [exact Nx|]. apply IH; [lia|exact E1].
      - intros E. inversion E; subst; try easy. match goal with Q : expands d (S k) s1 _ |- _ => apply IH in Q; [|lia]; rewrite Q; reflexivity end. }
  destruct s1 as [|y s2]; [split; [discriminate|intros E; inversion E; easy]|]. destruct (N.eqb_spec y ch_percent) as [-> |Ny].
  { split.
    - intros E. destruct (interpolate_loop lower d (interpolate lower d k) n s2) as [r1|] eqn:E1; [|discriminate]. cbn [bind] in E. injection E as <-. apply expands_percent. apply IH; [cbn in H; lia|exact E1].
    - intros E. inversion E; subst; try easy. match goal with Q : expands d (S k) s2 _ |- _ => apply IH in Q; [|cbn in H; lia]; now rewrite Q end. }
  destruct (reference_at (ch_percent :: y :: s2)) as [[name rest3]|] eqn:R.
  - apply reference_spec in R as (Q & Nn & Cn). injection Q as -> ->.
    assert (H3 : length rest3 < n) by (cbn in H; rewrite app_length in H; cbn in H; lia).
    split.
    + intros E. destruct (dict_get (lower name) d) as [v|] eqn:G; [|discriminate]. destruct (has ch_percent v) eqn:Hp.
      * destruct (interpolate lower d k v) as [e|] eqn:Ev; [|discriminate]. cbn [bind] in E. destruct (interpolate_loop lower d (interpolate lower d k) n rest3) as [r1|] eqn:E1; [|discriminate]. cbn [bind] in E. injection E as <-.
        apply (expands_deep d k name v e rest3 r1); auto; [now apply has_spec|now apply IHk|now apply IH].
      * cbn [bind] in E. destruct (interpolate_loop lower d (interpolate lower d k) n rest3) as [r1|] eqn:E1; [|discriminate]. cbn [bind] in E. injection E as <-.
        apply (expands_plain d k name v rest3 r1); auto; [now apply has_false|now apply IH].
    + intros E. remember (ch_percent :: ch_lparen :: name ++ ch_rparen :: 115%N :: rest3) as t eqn:Et.
      assert (U : forall nm v s, name ++ ch_rparen :: 115%N :: rest3 = nm ++ ch_rparen :: 115%N :: s -> ~ In ch_rparen nm -> dict_get (lower nm) d = Some v -> nm = name /\ s = rest3).
      { intros nm v s Q C _. assert (W : cut ch_rparen (name ++ ch_rparen :: 115%N :: rest3) = Some (name, 115%N :: rest3)) by (now apply cut_some).
        assert (W' : cut ch_rparen (name ++ ch_rparen :: 115%N :: rest3) = Some (nm, 115%N :: s)) by (apply cut_some; now split). rewrite W in W'. now injection W' as <- <-. }
      inversion E; subst; try easy.
      * now injection H4 as W _.
      * injection H7 as H7. destruct (U name0 v s (eq_sym H7) H2 H4) as [-> ->]. rewrite H4. apply has_false in H5. rewrite H5. cbn [bind]. apply IH in H6; [|exact H3]. now rewrite H6.
      * injection H8 as H8. destruct (U name0 v s (eq_sym H8) H2 H4) as [-> ->]. rewrite H4. apply has_spec in H5. rewrite H5. apply IHk in H6. rewrite H6. cbn [bind]. apply IH in H7; [|exact H3]. now rewrite H7.
  - split; [discriminate|]. intros E. exfalso. inversion E; subst; try easy.
    + match goal with Hn : ?nm <> [] |- _ => rewrite (proj2 (reference_spec _ nm s)) in R; [discriminate|auto] end.
    + match goal with Hn : ?nm <> [] |- _ => rewrite (proj2 (reference_spec _ nm s)) in R; [discriminate|auto] end.
Qed.

(** sections with the defaults *)
Lemma mem_spec k l : mem k l = true <-> In k l.
Proof.
  unfold mem. rewrite existsb_exists. split; [intros (x & H & E); apply streq_true in E; now subst|]. intros H. exists k. split; [exact H|apply streq_refl].
Qed.
Lemma mem_false k l : mem k l = false <-> ~ In k l.
Proof. rewrite <- mem_spec. now destruct (mem k l). Qed.
Lemma split_key {A} k (d : list (str * A)) : In k (map fst d) -> exists pre v post, d = pre ++ (k, v) :: post /\ ~ In k (map fst pre).
Proof.
  induction d as [|[k' v'] d IH]; [easy|]. cbn. intros H. destruct (streq k' k) eqn:E.
  - apply streq_true in E. subst. exists [], v', d. now split.
  - apply streq_false in E. destruct H as [H|H]; [contradiction|]. destruct (IH H) as (pre & v & post & -> & N). exists ((k', v') :: pre), v, post. split; [reflexivity|]. intros [W|W]; auto.
Qed.
Lemma merged_spec own : forall d : options, NoDup (map fst d) -> NoDup (map fst own) -> dict_update d own = merged d own.
Proof.
  induction own as [|[k v] own IH]; intros d Hd Ho.
  - unfold merged. cbn. rewrite app_nil_r. induction d as [|[k v] d IHd]; [reflexivity|]. cbn. f_equal. apply IHd. now inversion Hd.
  - cbn in Ho. inversion Ho as [|? ? Nk Ho']; subst. change (dict_update d ((k, v) :: own)) with (dict_update (dict_set k v d) own).
    assert (Ne : forall l : options, ~ In k (map fst l) -> map (fun kv => (fst kv, match dict_get (fst kv) ((k, v) :: own) with Some v => v | None => snd kv end)) l
      = map (fun kv => (fst kv, match dict_get (fst kv) own with Some v => v | None => snd kv end)) l).
    { intros l Nl. apply map_ext_in. intros [k' v'] Hk. cbn. destruct (streq k' k) eqn:E; [apply streq_true in E; subst; destruct Nl; apply (in_map fst) in Hk; exact Hk|reflexivity]. }
    destruct (in_dec (list_eq_dec N.eq_dec) k (map fst d)) as [Hk|Hk].
    + destruct (split_key k d Hk) as (pre & v0 & post & -> & Np). rewrite set_there by exact Np.
      rewrite map_app in Hd. cbn in Hd. assert (Npost : ~ In k (map fst post)) by (apply NoDup_remove_2 in Hd; intros W; apply Hd; apply in_or_app; now right).
      rewrite IH; [|now rewrite map_app|exact Ho']. unfold merged. rewrite !map_app. cbn [map fst snd]. rewrite (proj2 (get_none k own) Nk). cbn [dict_get]. rewrite streq_refl.
      rewrite !Ne by assumption. cbn [filter fst]. rewrite (proj2 (mem_spec k _)) by (apply in_or_app; right; now left). reflexivity.
    + rewrite set_new by exact Hk. rewrite IH; [|rewrite map_app; now apply NoDup_snoc|exact Ho']. unfold merged. rewrite !map_app. cbn [map fst snd]. rewrite (proj2 (get_none k own) Nk). cbn [dict_get].
      rewrite Ne by assumption. cbn [filter fst]. rewrite (proj2 (mem_false k _) Hk). cbn [negb]. rewrite <- app_assoc. f_equal. cbn. f_equal.
      apply filter_ext_in. intros [k' v'] Hk'. cbn [fst]. f_equal. apply (in_map fst) in Hk'. cbn in Hk'. assert (Nkk : k' <> k) by (intros ->; contradiction).
      destruct (mem k' (map fst d)) eqn:E1.
      * apply mem_spec in E1. apply mem_spec. apply in_or_app. now left.
      * apply mem_false in E1. apply mem_false. rewrite in_app_iff. cbn. intros [W|[W|[]]]; auto.
Qed.
Lemma config_nodup text d secs : config_text text d secs -> NoDup (map fst d) /\ NoDup (map fst secs) /\ ~ In DEFAULT (map fst secs) /\ forall s own, In (s, own) secs -> NoDup (map fst own).
Proof.
  intros (lines & fs & _ & _ & (P1 & P2 & P3) & D & S). assert (K : forall (r : raw) o, options_are r o -> map fst o = map fst r) by (induction 1 as [|a b r o [E _] F IH]; [reflexivity|]; cbn; congruence).
  rewrite (K _ _ D). split; [exact P2|].
  assert (DN : ~ In DEFAULT (map fst (others_of fs))).
  { rewrite in_map_iff. intros (f & E & H). apply filter_In in H as [_ H]. unfold is_default in H. rewrite E, streq_refl in H. discriminate. }
  revert P1 P3 DN S. generalize (others_of fs). intros l P1 P3 DN S.
  assert (K2 : map fst secs = map fst l) by (clear - S; induction S as [|a b r o [E _] F IH]; [reflexivity|]; cbn; congruence). rewrite K2. split; [exact P1|]. split; [exact DN|].
  intros s own H. clear - H P3 S K. induction S as [|a b r o [E F] Q IH]; [easy|]. destruct H as [->|H]; [|apply IH; [intros f Hf; apply P3; now right|exact H]]. cbn in F. rewrite (K _ _ F). apply P3. now left.
Qed.
Lemma get_in {A} (d : list (str * A)) k v : NoDup (map fst d) -> (dict_get k d = Some v <-> In (k, v) d).
Proof.
  induction d as [|[k' v'] d IH]; intros H; [now split|]. cbn in H. inversion H as [|? ? N H']; subst. cbn. destruct (streq k k') eqn:E.
  - apply streq_true in E. subst. split; [intros [= ->]; now left|]. intros [W|W]; [congruence|]. apply (in_map fst) in W. contradiction.
  - rewrite IH by exact H'. apply streq_false in E. split; [now right|]. intros [W|W]; [congruence|exact W].
Qed.
Lemma config_sections text d secs : config_text text d secs -> sections ((DEFAULT, d) :: secs) = map fst secs.
Proof.
  intros C. apply config_nodup in C as (_ & _ & N & _). unfold sections. cbn [map filter fst]. rewrite streq_refl. cbn [negb]. clear - N. induction secs as [|[s o] secs IH]; [reflexivity|]. cbn [map fst filter In] in *.
  destruct (streq s DEFAULT) eqn:E; [apply streq_true in E; destruct N; now left|]. cbn [negb]. f_equal. apply IH. intros W. apply N. now right.
Qed.
Lemma Forall2_weaken {A B} (P Q : A -> B -> Prop) l m : (forall x y, P x y -> Q x y) -> Forall2 P l m -> Forall2 Q l m.
Proof. intros H. induction 1; constructor; auto. Qed.
Lemma items_spec text d secs s items : config_text text d secs ->
  (s <> DEFAULT -> (get_items lower ((DEFAULT, d) :: secs) s = Ok items <-> exists own, In (s, own) secs /\ section_items d own items))
  /\ (forall own, In (s, own) secs -> unified ((DEFAULT, d) :: secs) s = merged d own).
Proof.
  intros C. pose proof (config_sections _ _ _ C) as Sc. apply config_nodup in C as (N1 & N2 & N3 & N4).
  assert (Un : forall own, In (s, own) secs -> unified ((DEFAULT, d) :: secs) s = merged d own).
  { intros own H. unfold unified. cbn [dict_get]. rewrite streq_refl. assert (Q : streq s DEFAULT = false) by (apply streq_false; intros ->; apply N3; apply (in_map fst) in H; exact H). rewrite Q.
    rewrite (proj2 (get_in secs s own N2) H). apply merged_spec; [exact N1|now apply (N4 s)]. }
  split; [|exact Un]. intros Ns. unfold get_items, has_section. rewrite Sc. apply streq_false in Ns. rewrite Ns, orb_false_r.
  destruct (mem s (map fst secs)) eqn:M; cbn [negb].
  - apply mem_spec in M. destruct (split_key s secs M) as (pre & own & post & Q & _). assert (H : In (s, own) secs) by (rewrite Q; apply in_or_app; right; now left).
    rewrite (Un own H). unfold section_items. eapply iff_trans; [exact (mapM_F2 _ _ _)|]. split.
    + intros F. exists own. split; [exact H|]. eapply Forall2_weaken; [|exact F]. intros [k v] y E. cbn [fst snd] in *. destruct (interpolate lower (merged d own) MAX_DEPTH v) as [r|] eqn:I; [|discriminate]. cbn in E. injection E as <-. split; [reflexivity|]. now apply interpolate_spec.
    + intros (own' & H' & F). assert (own' = own) by (apply (get_in secs s _ N2) in H, H'; congruence). subst own'. eapply Forall2_weaken; [|exact F]. intros [k v] [k' r] [E I]. cbn [fst snd] in *. subst. apply interpolate_spec in I. unfold MAX_DEPTH. now rewrite I.
  - split; [discriminate|]. intros (own & H & _). apply mem_false in M. destruct M. apply (in_map fst) in H. exact H.
Qed.
Lemma Forall2_iff_in {A B} (P Q : A -> B -> Prop) l m : (forall x y, In x l -> (P x y <-> Q x y)) -> Forall2 P l m <-> Forall2 Q l m.
Proof.
  intros H. split; intros F; induction F as [|x y l m E F IH]; constructor; try (apply H; [now left|exact E]); apply IH; intros a b Ha; apply H; now right.
Qed.
Lemma Forall2_map_l {A B C} (f : A -> B) (P : B -> C -> Prop) l m : Forall2 P (map f l) m <-> Forall2 (fun x y => P (f x) y) l m.
Proof.
  revert m. induction l as [|x l IH]; intros m; split; intros F; inversion F; subst; constructor; auto; now apply IH.
Qed.
(** the mapping *)
Theorem C98_mapping text m : parse_xml_mapping sp lower text = Ok m <->
  exists d sections, config_text text d sections /\ Forall2 (fun f g => fst f = fst g /\ section_items d (snd f) (snd g)) sections m.
Proof.
  assert (K : forall d secs, config_text text d secs -> mapM (fun s => do o <- get_items lower ((DEFAULT, d) :: secs) s ;; Ok (s, o)) (sections ((DEFAULT, d) :: secs)) = Ok m
    <-> Forall2 (fun f g => fst f = fst g /\ section_items d (snd f) (snd g)) secs m).
  { intros d secs C. rewrite (config_sections _ _ _ C). eapply iff_trans; [exact (mapM_F2 _ _ _)|]. rewrite Forall2_map_l. apply Forall2_iff_in. intros [s own] [s' items] H. cbn [fst snd].
    pose proof (config_nodup _ _ _ C) as (N1 & N2 & N3 & N4). assert (Ns : s <> DEFAULT) by (intros ->; apply N3; apply (in_map fst) in H; exact H).
    destruct (get_items lower ((DEFAULT, d) :: secs) s) as [o|] eqn:G; cbn [bind].
    - apply (proj1 (items_spec text d secs s o C) Ns) in G as (own' & H' & I). assert (own' = own) by (apply (get_in secs s _ N2) in H, H'; congruence). subst own'. split; [intros [= <- <-]; now split|]. intros [<- I'].
      assert (G : get_items lower ((DEFAULT, d) :: secs) s = Ok o) by (apply (items_spec text d secs s o C); [exact Ns|now exists own]).
      assert (G' : get_items lower ((DEFAULT, d) :: secs) s = Ok items) by (apply (items_spec text d secs s items C); [exact Ns|now exists own]). congruence.
    - split; [discriminate|]. intros [_ I]. assert (G' : get_items lower ((DEFAULT, d) :: secs) s = Ok items) by (apply (items_spec text d secs s items C); [exact Ns|now exists own]). congruence. }
  unfold parse_xml_mapping. split.
  - destruct (read_ini sp lower text) as [ini|] eqn:E; [|discriminate]. apply C97_text in E as (d & secs & C & ->). cbn [bind]. intros H. exists d, secs. split; [exact C|]. now apply K.
  - intros (d & secs & C & F). rewrite (proj2 (C97_text text ((DEFAULT, d) :: secs))) by (now exists d, secs). cbn [bind]. now apply K.
Qed.
(** numbers *)
Section Numbers.
Variable to_int : str -> option Z.
Variable parse_list : str -> list str.
Variable order : list str -> list str.
Lemma merged_nodup d own : NoDup (map fst d) -> NoDup (map fst own) -> NoDup (map fst (merged d own)).
Proof.
  intros Hd Ho. rewrite <- merged_spec by assumption. clear Ho. revert d Hd. induction own as [|kv own IH]; intros d Hd; [exact Hd|]. change (dict_update d (kv :: own)) with (dict_update (dict_set (fst kv) (snd kv) d) own). apply IH. now apply dict_set_keys.
Qed.
Lemma number_spec text d secs section option fallback z : config_text text d secs -> section <> DEFAULT ->
  getint lower to_int ((DEFAULT, d) :: secs) section option fallback = Ok z <-> number_is to_int d secs section (lower option) fallback z.
Proof.
  intros C Ns. pose proof (config_sections _ _ _ C) as Sc. pose proof (items_spec text d secs section [] C) as [_ Un]. pose proof (config_nodup _ _ _ C) as (N1 & N2 & N3 & N4).
  unfold getint, has_section, number_is. rewrite Sc. destruct (mem section (map fst secs)) eqn:M; cbn [negb].
  - apply mem_spec in M. destruct (split_key section secs M) as (pre & own & post & Q & _). assert (H : In (section, own) secs) by (rewrite Q; apply in_or_app; right; now left).
    rewrite (Un own H). assert (Nm : NoDup (map fst (merged d own))) by (apply merged_nodup; [exact N1|now apply (N4 section)]).
    assert (Uq : forall own', In (section, own') secs -> own' = own) by (intros own' H'; apply (get_in secs section _ N2) in H, H'; congruence).
    destruct (dict_get (lower option) (merged d own)) as [v|] eqn:G.
    + apply get_in in G; [|exact Nm]. split.
      * intros E. destruct (interpolate lower (merged d own) MAX_DEPTH v) as [r|] eqn:I; [|discriminate]. cbn [bind] in E. destruct (to_int r) as [z'|] eqn:T; [|discriminate]. injection E as ->.
        right. exists own. split; [exact H|]. right. exists v, r. split; [exact G|]. split; [now apply interpolate_spec|exact T].
      * intros [[W _]|(own' & H' & W)]; [contradiction|]. apply Uq in H'. subst own'. destruct W as [[W _]|(v' & r & Hv & I & T)].
        -- destruct W. apply (in_map fst) in G. exact G.
        -- assert (v' = v) by (apply (get_in _ _ _ Nm) in G, Hv; congruence). subst v'. apply interpolate_spec in I. unfold MAX_DEPTH. rewrite I. cbn [bind]. now rewrite T.
    + apply get_none in G. split.
      * intros [= <-]. right. exists own. split; [exact H|]. now left.
      * intros [[W _]|(own' & H' & W)]; [contradiction|]. apply Uq in H'. subst own'. destruct W as [[_ ->]|(v' & r & Hv & _)]; [reflexivity|]. apply (in_map fst) in Hv. contradiction.
  - apply mem_false in M. split; [intros [= <-]; now left|]. intros [[_ ->]|(own & H & _)]; [reflexivity|]. apply (in_map fst) in H. contradiction.
Qed.
Theorem C98_segmentation text c : parse_segmentation_config sp lower to_int parse_list order text = Ok c <->
  exists d sections own items, config_text text d sections /\ In (u "tags", own) sections /\ section_items d own items /\
    sc_mapping c = map (fun kv => (fst kv, order (parse_list (snd kv)))) items /\ sc_no_merge_references c = false /\
    number_is to_int d sections (u "config") (lower (u "front_max_start_line_index")) 0%Z (sc_front_max c) /\
    number_is to_int d sections (u "config") (lower (u "page_header_max_first_line_index")) 50%Z (sc_header_max c).
Proof.
  assert (D1 : u "config" <> DEFAULT) by (vm_compute; discriminate). assert (D2 : u "tags" <> DEFAULT) by (vm_compute; discriminate).
  unfold parse_segmentation_config. split.
  - destruct (read_ini sp lower text) as [ini|] eqn:E; [|discriminate]. apply C97_text in E as (d & secs & C & ->). cbn [bind].
    destruct (getint lower to_int ((DEFAULT, d) :: secs) (u "config") (u "front_max_start_line_index") 0) as [z1|] eqn:E1; [|discriminate]. cbn [bind].
    destruct (getint lower to_int ((DEFAULT, d) :: secs) (u "config") (u "page_header_max_first_line_index") 50) as [z2|] eqn:E2; [|discriminate]. cbn [bind].
    destruct (get_items lower ((DEFAULT, d) :: secs) (u "tags")) as [items|] eqn:E3; [|discriminate]. cbn [bind]. intros [= <-].
    apply (items_spec text d secs (u "tags") items C) in E3 as (own & H & I); [|exact D2]. apply (number_spec text d secs _ _ _ _ C D1) in E1, E2. exists d, secs, own, items. repeat split; assumption.
  - intros (d & secs & own & items & C & H & I & M & Nm & F1 & F2). rewrite (proj2 (C97_text text ((DEFAULT, d) :: secs))) by (now exists d, secs). cbn [bind].
    apply (number_spec text d secs _ _ _ _ C D1) in F1, F2. rewrite F1. cbn [bind]. rewrite F2. cbn [bind].
    rewrite (proj2 (proj1 (items_spec text d secs (u "tags") items C) D2)) by (now exists own). cbn [bind]. destruct c. cbn in *. now subst.
Qed.
End Numbers.
End Ini.

(* ---------------------------------------------------------------- *)
(** ** Examples *)
Definition lower_letters (s : str) : str := map (fun x => if ascii_upper x then (x + 32)%N else x) s.
Lemma lower_letters_ne s : s <> [] -> lower_letters s <> [].
Proof. now destruct s. Qed.
Definition nl : str := [ch_newline].
Definition ex_config : str :=
  u "# texts" ++ nl ++ u "[DEFAULT]" ++ nl ++ u "base: //front" ++ nl ++ nl ++ u "[article] ; more" ++ nl
  ++ u "Title = %(BASE)s/title" ++ nl ++ u "   # comment" ++ nl ++ u "  | %(base)s/t%%" ++ nl ++ nl ++ u "doi=" ++ nl ++ u "[DEFAULT]" ++ nl ++ u "doi = x" ++ [13%N; 10%N].
Example C97_ex : read_ini ascii_space lower_letters ex_config =
  Ok [(DEFAULT, [(u "base", u "//front"); (u "doi", u "x")]);
      (u "article", [(u "title", u "%(BASE)s/title" ++ nl ++ u "| %(base)s/t%%"); (u "doi", [])])].
Proof. vm_compute. reflexivity. Qed.
Example C97_ex_rejected : read_ini ascii_space lower_letters (u "title = x") = Err RuntimeError /\ read_ini ascii_space lower_letters (u "[a]" ++ nl ++ u "A=1" ++ nl ++ u "a: 2") = Err RuntimeError
  /\ read_ini ascii_space lower_letters (u "[a]" ++ nl ++ u "[a]") = Err RuntimeError /\ read_ini ascii_space lower_letters (u "[a]" ++ nl ++ u "word") = Err RuntimeError.
Proof. repeat split; vm_compute; reflexivity. Qed.
Example C98_ex : parse_xml_mapping ascii_space lower_letters ex_config =
  Ok [(u "article", [(u "base", u "//front"); (u "doi", []); (u "title", u "//front/title" ++ nl ++ u "| //front/t%")])].
Proof. vm_compute. reflexivity. Qed.
Definition ex_int (s : str) : option Z := if streq s (u "7") then Some 7%Z else None.
Example C98_ex_segments : parse_segmentation_config ascii_space lower_letters ex_int (comma_list ascii_space) (@rev str)
    (u "[config]" ++ nl ++ u "front_max_start_line_index = 7" ++ nl ++ u "[tags]" ++ nl ++ u "front = title, abstract" ++ nl ++ u "page = page_no") =
  Ok (mkSegConfig [(u "front", [u "abstract"; u "title"]); (u "page", [u "page_no"])] 7 50 false)
  /\ parse_segmentation_config ascii_space lower_letters ex_int (comma_list ascii_space) (@rev str) (u "[config]") = Err RuntimeError
  /\ parse_segmentation_config ascii_space lower_letters ex_int (comma_list ascii_space) (@rev str) (u "[config]" ++ nl ++ u "front_max_start_line_index = x" ++ nl ++ u "[tags]") = Err ValueError.
Proof. repeat split; vm_compute; reflexivity. Qed.
(** references that go round are an error *)
Example C98_ex_loop : parse_xml_mapping ascii_space lower_letters (u "[a]" ++ nl ++ u "x = %(y)s" ++ nl ++ u "y = %(x)s") = Err RuntimeError.
Proof. vm_compute. reflexivity. Qed.
(** Segments are called as they are written: in the file of the repository one is not. *)
Theorem C98_names_refuted : exists text c name tags, parse_segmentation_config ascii_space lower_letters ex_int (comma_list ascii_space) (fun l => l) text = Ok c /\
  In (name ++ u " = " ++ tags) (file_lines text) /\ ~ In name (map fst (sc_mapping c)).
Proof.
  exists segmentation_conf. eexists. exists (u "listBibl"), (u "listBibl"). split; [vm_compute; reflexivity|]. split; [|vm_compute; intuition discriminate].
  vm_compute. repeat (first [left; reflexivity|right]).
Qed.
Print Assumptions C97_lines.
Print Assumptions C97_text.
Print Assumptions C98_mapping.
Print Assumptions C98_segmentation.
Print Assumptions C98_names_refuted.
