(** C07, continued: the sub tags after saving and loading. *)
From Verif Require Import Base ModelTags ModelTokenize ModelXml ModelTei ProofXml ProofTags
  ProofTokenize SpecTeiRead ProofTeiRead ProofTeiLoad PropTokenize PropTeiRead SpecTeiWrite ProofTeiWrite ProofTeiSave
  PropTeiWrite ProofTeiRoundtrip ProofTeiPrefix PropTeiRoundtrip PropTeiPrefix ProofTeiSub.
Open Scope nat_scope.

(* ---------------------------------------------------------------- *)
(** ** Specification *)
Section Spec.
Variable sp : N -> bool.
Variable m : list (str * str).

(** The word lies in a new element: not all elements of its path are kept open. *)
Definition opens (prev : option tok) (rs : list str) (t : tok) : bool :=
  length (keep m (match prev with Some t0 => required_path m t0 | None => [] end) rs t) <? length (required_path m t).

(** What is loaded as sub tags.  [lead]: in the element of the word before there was
    neither a line break nor another element.  A word has a sub tag if it lies below
    the element of its main tag and nothing but text came before it in its element. *)
Fixpoint reloaded_subs (prev : option tok) (lead : bool) (rs : list str) (l : list (option tok)) : list (option (N * ostr * bool)) :=
  match l with
  | [] => []
  | None :: l' => reloaded_subs prev false rs l'
  | Some t :: l' =>
      if is_space sp t then reloaded_subs prev lead (match begins t with Some v => v :: rs | None => rs end) l'
      else
        let p := required_path m t in
        let p0 := tag_path m (value (shown_tag t)) in
        let lead' := opens prev rs t
          || match prev with Some t0 => lead && path_eqb (required_path m t0) p | None => false end in
        let v := match p0 with [] => None | _ => if (length p0 <? length p) && lead' then loaded_value m p else None end in
        chars sp (tx t) v (truthy v && opens prev rs t) ++ reloaded_subs (Some t) lead' [] l'
  end.
End Spec.

(* ---------------------------------------------------------------- *)
(** ** What was written, piece by piece *)
Section Events.
Variable sp : N -> bool.
Variable node_ok : str -> list (str * str) -> bool.
Variable m : list (str * str).
Variable rp : list str.
Variable L : list piece.
Notation smarks := (smarks sp rp L).
Notation good := (good sp rp L m).

Definition charb (o : mark) : bool := match o with Some (c, _, _) => negb (sp c) | None => false end.

Lemma smarks_word a s seen :
  smarks seen (map (PChar a) s) =
  let ok := below_entity sp rp L a && lead seen a in
  text_marks s (if ok then Some (join_path (exprs a)) else None) (ok && first_char seen a).
Proof.
  cbv zeta. destruct s as [|c s]; [reflexivity|]. destruct (below_entity sp rp L a && lead seen a) eqn:Eo.
  - cbn [map ProofTeiSub.smarks text_marks]. unfold smark at 1. rewrite Eo. cbn [andb]. f_equal.
    apply andb_true_iff in Eo as [E1 E2]. apply smarks_lead; [exact E1| |].
    + unfold lead in *. cbn [existsb blocks]. rewrite addr_eqb_refl. cbn [negb]. rewrite andb_false_r. exact E2.
    + unfold first_char in *. cbn [existsb]. now rewrite addr_eqb_refl.
  - cbn [andb text_marks]. apply smarks_none. apply andb_false_iff in Eo as [E1|E1]; [now left|right].
    unfold lead in E1. apply negb_false_iff in E1. now apply existsb_exists in E1.
Qed.

Fixpoint evsub (pw : addr) (ld : bool) (evs : list ev) (W : list (list str * tok * addr)) (path : list str) : list mark :=
  match evs with
  | [] => []
  | EvLb _ :: r => evsub pw false r W path
  | EvTok t a :: r =>
      if is_space sp t then evsub pw ld r W path
      else match W with
        | [] => []
        | (rs, _, _) :: W' =>
            let new := length (keep m path rs t) <? length a in
            let ld' := new || (ld && addr_eqb pw a) in
            let n := length (main_path m t) in
            let ok := (0 <? n) && (n <? length a) && ld' in
            filter charb (text_marks (tx t) (if ok then Some (join_path (exprs a)) else None) (ok && new))
            ++ evsub a ld' r W' (required_path m t)
        end
  end.

Definition waiting (pw : addr) (evs : list ev) (p : piece) : Prop :=
  match next_word sp evs with
  | Some (w, b) => prefix (piece_addr p) b /\ (~ prefix b pw -> piece_addr p <> b) /\ (forall c, p <> PLb c)
  | None => True
  end.
Definition inv (seen : list piece) (pw : addr) (ld : bool) (earlier : list addr) (evs : list ev) : Prop :=
  (forall p, In p seen -> (exists c, (c = [] \/ In c earlier) /\ prefix (piece_addr p) c) \/ waiting pw evs p) /\
  match next_word sp evs with Some (w, b) => b = pw -> b <> [] -> lead seen b = ld | None => True end /\
  (pw = [] \/ exists c, In (PChar pw c) seen) /\
  (pw = [] \/ In pw earlier).

Lemma below_good t a : good t a ->
  below_entity sp rp L a = (0 <? length (main_path m t)) && (length (main_path m t) <? length a).
Proof.
  intros Hg. unfold below_entity. rewrite (good_E _ _ _ _ _ _ Hg). destruct Hg as (G1 & _).
  destruct (length (main_path m t)) as [|n] eqn:E0; [reflexivity|]. cbn [Nat.eqb].
  change (0 <? S n) with true. cbn [andb]. destruct (S n <? length a) eqn:El.
  - apply Nat.ltb_lt in El. apply negb_true_iff, not_true_iff_false. rewrite addr_eqb_true. intros C.
    apply (f_equal (@length _)) in C. rewrite firstn_length in C. lia.
  - apply Nat.ltb_ge in El. apply negb_false_iff. apply addr_eqb_true. apply firstn_all2. lia.
Qed.

Lemma smarks_evsub evs : forall W path pw ld earlier seen,
  ev_words sp evs = map (fun x => (snd (fst x), snd x)) W ->
  linked node_ok m path pw earlier W ->
  placed sp pw evs -> spaced sp m pw evs ->
  (forall t b, In (t, b) (ev_words sp evs) -> good t b) ->
  inv seen pw ld earlier evs ->
  filter charb (smarks seen (flat_map flat_ev evs)) = evsub pw ld evs W path.
Proof.
  induction evs as [|[t a|a] evs IH]; intros W path pw ld earlier seen HW HL Hp Hs Hg Hi; [reflexivity| |].
  - cbn [flat_map flat_ev evsub placed spaced] in *. rewrite smarks_app, filter_app, smarks_word. cbv zeta.
    destruct (is_space sp t) eqn:Es.
    + replace (filter charb (text_marks _ _ _)) with (@nil mark).
      2:{ symmetry. unfold is_space, blank in Es. rewrite forallb_forall in Es. destruct (tx t) as [|c s]; [reflexivity|].
          cbn [text_marks filter charb]. rewrite (Es c (or_introl eq_refl)). cbn [negb].
          assert (Es' : forall d, In d s -> sp d = true) by (intros; apply Es; now right). clear -Es'.
          induction s as [|d s IHs]; [reflexivity|]. cbn [map filter charb]. rewrite (Es' d (or_introl eq_refl)). cbn [negb].
          apply IHs. intros; apply Es'; now right. }
      destruct Hp as [Hp1 Hp2], Hs as [Hs1 Hs2]. apply (IH W path pw ld earlier); auto.
      * revert HW. unfold ev_words. cbn [flat_map]. now rewrite Es.
      * intros t' b Hin. apply Hg. unfold ev_words. cbn [flat_map]. rewrite Es. exact Hin.
      * destruct Hi as (I1 & I2 & I3 & I4).
        assert (Hnw : next_word sp (EvTok t a :: evs) = next_word sp evs) by (cbn [next_word]; now rewrite Es).
        rewrite Hnw in I2.
        assert (Hnew : forall p, In p (rev (map (PChar a) (tx t))) -> waiting pw evs p).
        { intros p Hin. apply in_rev in Hin. apply in_map_iff in Hin as (c & <- & _). unfold waiting. cbn [piece_addr].
          destruct (next_word sp evs) as [[w b]|] eqn:En; [|exact I]. rewrite (next_addr_word _ _ _ _ En) in Hp1.
          split; [exact Hp1|]. split; [|discriminate]. intros Hn.
          assert (Hgw : good w b).
          { apply Hg. unfold ev_words. cbn [flat_map]. rewrite Es. now apply next_word_in. }
          destruct Hgw as (G1 & _). specialize (Hs1 (length b) G1 (le_n _)). rewrite firstn_all in Hs1. apply Hs1 in Hn.
          intros ->. lia. }
        split; [|split; [|split]].
        -- intros p Hin. apply in_app_or in Hin as [Hin|Hin]; [right; now apply Hnew|].
           destruct (I1 p Hin) as [?|Hwt]; [now left|right]. unfold waiting in *. now rewrite Hnw in Hwt.
        -- destruct (next_word sp evs) as [[w b]|] eqn:En; [|exact I]. intros Hb Hb2. rewrite <- (I2 Hb Hb2).
           unfold lead. rewrite existsb_app. f_equal. replace (existsb _ (rev _)) with false; [reflexivity|].
           symmetry. apply not_true_iff_false. rewrite existsb_exists. intros (p & Hin & Hbl).
           pose proof (Hnew p Hin) as Hwt. unfold waiting in Hwt. rewrite En in Hwt. destruct Hwt as (W1 & _ & W2).
           destruct p as [x c|x]; [|now apply (W2 x)]. cbn [blocks piece_addr] in *. apply andb_true_iff in Hbl as [B1 B2].
           apply prefixb_true in B1. apply negb_true_iff in B2. rewrite (prefix_antisym _ _ B1 W1), addr_eqb_refl in B2. discriminate.
        -- destruct I3 as [?|(c & Hc)]; [now left|right; exists c; apply in_or_app; now right].
        -- exact I4.
    + assert (Hga : good t a) by (apply Hg; unfold ev_words; cbn [flat_map]; rewrite Es; now left).
      assert (HW' : exists rs W', W = (rs, t, a) :: W' /\ ev_words sp evs = map (fun x => (snd (fst x), snd x)) W').
      { revert HW. unfold ev_words. cbn [flat_map]. rewrite Es. cbn [app]. destruct W as [|[[rs t'] a'] W']; [discriminate|].
        cbn [map fst snd]. intros HW. injection HW as -> -> HW. now exists rs, W'. }
      destruct HW' as (rs & W' & -> & HW'). clear HW. cbn [linked] in HL. cbv zeta in HL. destruct HL as (K1 & K2 & K3 & K4 & K5 & K6).
      set (k := length (keep m path rs t)) in *. rewrite (below_good _ _ Hga).
      destruct Hi as (I1 & I2 & I3 & I4). cbn [next_word] in I2. rewrite Es in I2.
      assert (Hw : forall p, In p seen -> (exists c, (c = [] \/ In c earlier) /\ prefix (piece_addr p) c) \/
        (prefix (piece_addr p) a /\ (~ prefix a pw -> piece_addr p <> a) /\ (forall c, p <> PLb c))).
      { intros p Hin. destruct (I1 p Hin) as [?|Hwt]; [now left|right]. unfold waiting in Hwt. cbn [next_word] in Hwt.
        rewrite Es in Hwt. exact Hwt. }
      assert (Hfresh : k < length a -> fresh a seen).
      { intros Hk p Hin Hpre.
        assert (Hsk : prefix (firstn (S k) a) (piece_addr p)) by (eapply prefix_trans; [apply prefix_firstn_self|exact Hpre]).
        destruct (Hw p Hin) as [(c & [->|Hc] & Hpc)|(H1 & H2 & _)].
        - pose proof (prefix_length _ _ (prefix_trans _ _ _ Hpre Hpc)) as HL0. cbn [length] in HL0. lia.
        - apply (K5 Hk c Hc). eapply prefix_trans; [exact Hsk|exact Hpc].
        - apply H2; [|now apply prefix_antisym]. intros Hx. destruct I4 as [->|I4].
          + apply prefix_length in Hx. cbn [length] in Hx. lia.
          + apply (K5 Hk pw I4). eapply prefix_trans; [apply prefix_firstn_self|exact Hx]. }
      assert (Hold : ~ k < length a -> prefix a pw).
      { intros Hk. assert (Hka : k = length a) by lia. rewrite Hka, firstn_all in K4. rewrite K4. apply prefix_firstn_self. }
      assert (Hlead : a <> [] -> lead seen a = (k <? length a) || (ld && addr_eqb pw a)).
      { intros Ha. destruct (k <? length a) eqn:Ek.
        - apply Nat.ltb_lt in Ek. cbn [orb]. now apply lead_fresh, Hfresh.
        - apply Nat.ltb_ge in Ek. cbn [orb]. destruct (addr_eqb pw a) eqn:Ea.
          + apply addr_eqb_true in Ea. rewrite andb_true_r. apply I2; auto.
          + rewrite andb_false_r. specialize (Hold ltac:(lia)). destruct I3 as [->|(c & Hc)].
            { apply prefix_length in Hold. destruct a; [congruence|cbn in Hold; lia]. }
            apply (lead_false _ _ _ Hc). cbn [blocks]. apply andb_true_iff. split; [now apply prefixb_true|].
            apply negb_true_iff, not_true_iff_false. rewrite addr_eqb_true. intros ->. now rewrite addr_eqb_refl in Ea. }
      set (new := k <? length a) in *. set (n := length (main_path m t)) in *.
      assert (Hne : tx t <> []) by (intros C; unfold is_space in Es; rewrite C in Es; discriminate).
      f_equal.
      * f_equal. destruct ((0 <? n) && (n <? length a)) eqn:Eb; [|reflexivity]. cbn [andb].
        assert (Ha : a <> []). { intros ->. apply andb_true_iff in Eb as [_ Eb]. apply Nat.ltb_lt in Eb. cbn in Eb. lia. }
        rewrite (Hlead Ha). f_equal.
        destruct new eqn:En; cbn [orb andb].
        -- unfold new in En. apply Nat.ltb_lt in En. now apply lead_fresh, Hfresh.
        -- destruct (ld && addr_eqb pw a) eqn:El; [|reflexivity]. cbn [andb]. apply andb_true_iff in El as [_ El]. apply addr_eqb_true in El.
           subst pw. destruct I3 as [?|(c & Hc)]; [contradiction|]. unfold first_char. apply negb_false_iff, existsb_exists.
           exists (PChar a c). split; [exact Hc|apply addr_eqb_refl].
      * apply (IH W' (required_path m t) a _ (earlier ++ [a])); auto.
        -- intros t' b Hin. apply Hg. unfold ev_words. cbn [flat_map]. rewrite Es. now right.
        -- split; [|split; [|split]].
           ++ intros p Hin. left. apply in_app_or in Hin as [Hin|Hin].
              ** apply in_rev in Hin. apply in_map_iff in Hin as (c & <- & _). exists a. cbn. split; [right; apply in_or_app; right; now left|apply prefix_refl].
              ** destruct (Hw p Hin) as [(c & [->|Hc] & Hpc)|(H1 & _)].
                 --- exists []. auto.
                 --- exists c. split; [right; apply in_or_app; now left|exact Hpc].
                 --- exists a. split; [right; apply in_or_app; right; now left|exact H1].
           ++ destruct (next_word sp evs) as [[w b]|] eqn:En; [|exact I]. intros -> Hb. rewrite <- (Hlead Hb).
              unfold lead. rewrite existsb_app. f_equal. replace (existsb _ (rev _)) with false; [reflexivity|].
              symmetry. apply not_true_iff_false. rewrite existsb_exists. intros (p & Hin & Hbl).
              apply in_rev in Hin. apply in_map_iff in Hin as (c & <- & _). cbn in Hbl. rewrite addr_eqb_refl in Hbl.
              cbn [negb] in Hbl. rewrite andb_false_r in Hbl. discriminate.
           ++ right. destruct (tx t) as [|c s]; [congruence|]. exists c. apply in_or_app. left. apply in_rev. rewrite rev_involutive. now left.
           ++ right. apply in_or_app. right. now left.
  - cbn [flat_map flat_ev app ProofTeiSub.smarks filter charb evsub placed spaced] in *. destruct Hp as [-> Hp].
    apply (IH W path pw false earlier); auto.
    destruct Hi as (I1 & I2 & I3 & I4). split; [|split; [|split]].
    + intros p [<-|Hin].
      * left. exists pw. split; [tauto|apply prefix_refl].
      * exact (I1 p Hin).
    + destruct (next_word sp evs) as [[w b]|] eqn:En; [|exact I]. intros -> Hb. apply (lead_false _ _ (PLb pw)); [now left|].
      cbn. apply prefixb_true, prefix_refl.
    + destruct I3 as [?|(c & Hc)]; [now left|right; exists c; now right].
    + exact I4.
Qed.
End Events.

(* ---------------------------------------------------------------- *)
(** ** From what was written to the tokens *)
Fixpoint wrs (sp : N -> bool) (m : list (str * str)) (prev : option tok) (lead : bool) (sk : list (option tok)) (W : list (list str * tok)) : list mark :=
  match sk with
  | [] => []
  | None :: sk' => wrs sp m prev false sk' W
  | Some t :: sk' =>
      match W with
      | [] => []
      | (rs, _) :: W' =>
        let p := required_path m t in
        let p0 := tag_path m (value (shown_tag t)) in
        let lead' := opens m prev rs t
          || match prev with Some t0 => lead && path_eqb (required_path m t0) p | None => false end in
        let v := match p0 with [] => None | _ => if (length p0 <? length p) && lead' then loaded_value m p else None end in
        chars sp (tx t) v (truthy v && opens m prev rs t) ++ wrs sp m (Some t) lead' sk' W'
      end
  end.
Lemma wrs_reloaded sp m l : forall prev lead rs,
  wrs sp m prev lead (skeleton sp l) (words_go sp rs (flat_map (fun o => match o with Some t => [t] | None => [] end) l))
  = reloaded_subs sp m prev lead rs l.
Proof.
  induction l as [|[t|] l IH]; intros prev lead rs; [reflexivity| |].
  - cbn [skeleton filter flat_map app words_go reloaded_subs]. fold (skeleton sp l). destruct (is_space sp t); cbn [negb].
    + apply IH.
    + cbn [wrs]. cbv zeta. f_equal. apply IH.
  - cbn [skeleton filter flat_map app wrs reloaded_subs]. fold (skeleton sp l). apply IH.
Qed.

Lemma filter_ink_lift3 sp f l : filter (charb sp) (map (lift3 f) l) = map (lift3 f) (filter (charb sp) l).
Proof.
  induction l as [|[[[c v] b]|] l IH]; cbn; [reflexivity| |]; rewrite IH; [|reflexivity].
  destruct (negb (sp c)); reflexivity.
Qed.
Lemma ink_text sp s v b : filter (charb sp) (text_marks s v b) = chars sp s v b.
Proof.
  rewrite <- chars_marks. apply filter_ext_in. intros x Hx. destruct s as [|c s]; [destruct Hx|]. cbn [text_marks] in Hx.
  destruct Hx as [<-|Hx]; [reflexivity|]. apply in_map_iff in Hx as (d & <- & _). reflexivity.
Qed.

Section Doc.
Variable sp : N -> bool.
Variable node_ok : str -> list (str * str) -> bool.
Variable m : list (str * str).
Variable rp : list str.
Variable L : list piece.

Lemma evsub_wrs evs : forall W path pw ld earlier prev,
  ev_words sp evs = map (fun x => (snd (fst x), snd x)) W ->
  linked node_ok m path pw earlier W ->
  path = match prev with Some t0 => required_path m t0 | None => [] end ->
  exprs pw = path -> (prev = None -> ld = false) ->
  (forall t b, In (t, b) (ev_words sp evs) -> exprs b = required_path m t) ->
  map (lift3 (field_of m)) (evsub sp m pw ld evs W path) = wrs sp m prev ld (ev_skeleton sp evs) (map fst W).
Proof.
  induction evs as [|[t b|b] evs IH]; intros W path pw ld earlier prev HW HL Hp Hpw Hld Hg; [reflexivity| |].
  - unfold ev_words, ev_skeleton in *. cbn [flat_map evsub] in *. fold (ev_words sp evs) in *. fold (ev_skeleton sp evs).
    destruct (is_space sp t) eqn:Es.
    + cbn [app] in *. eapply IH; eauto.
    + cbn [app] in *. destruct W as [|[[rs t'] b'] W]; [discriminate|]. cbn [map fst snd] in HW. injection HW as <- <- HW.
      cbn [wrs map fst]. cbv zeta. rewrite map_app, <- filter_ink_lift3, lift3_text, ink_text.
      pose proof (Hg t b (or_introl eq_refl)) as Hb.
      assert (Hlb : length b = length (required_path m t)) by (rewrite <- Hb; unfold exprs; now rewrite map_length).
      cbn [linked] in HL. cbv zeta in HL. destruct HL as (K1 & K2 & K3 & K4 & K5 & K6).
      rewrite Hlb. fold (opens m prev rs t) in *.
      assert (Hop : (length (keep m path rs t) <? length (required_path m t)) = opens m prev rs t) by (rewrite Hp; reflexivity).
      rewrite Hop.
      assert (Hl' : opens m prev rs t || (ld && addr_eqb pw b)
        = opens m prev rs t || match prev with Some t0 => ld && path_eqb (required_path m t0) (required_path m t) | None => false end).
      { destruct (opens m prev rs t) eqn:Eo; [reflexivity|]. cbn [orb]. destruct prev as [t0|]; [|now rewrite Hld].
        f_equal. assert (Eo2 : length (required_path m t) <= length (keep m path rs t)) by (apply Nat.ltb_ge; congruence).
        assert (Hk : length (keep m path rs t) = length b) by (rewrite <- Hlb in Eo2; apply Nat.le_antisymm; assumption).
        rewrite Hk, firstn_all in K4. destruct (addr_eqb pw b) eqn:Ea.
        - apply addr_eqb_true in Ea. symmetry. apply path_eqb_true. rewrite <- Hp, <- Hpw, <- Hb. now rewrite Ea.
        - symmetry. apply not_true_iff_false. rewrite path_eqb_true. intros C. rewrite <- Hp, <- Hpw, <- Hb in C.
          apply not_true_iff_false in Ea. apply Ea, addr_eqb_true. rewrite K4.
          rewrite firstn_all2; [reflexivity|]. apply (f_equal (@length _)) in C. unfold exprs in C. rewrite !map_length in C. lia. }
      rewrite Hl'. set (ld' := _ || match prev with Some t0 => _ | None => false end). f_equal.
      * rewrite <- main_tag_path. destruct (main_path m t) as [|f p0] eqn:Em; [reflexivity|].
        change (0 <? length (f :: p0)) with true. cbn [andb].
        destruct ((length (f :: p0) <? length (required_path m t)) && ld') eqn:Eo; [|reflexivity].
        cbn [option_map]. cbn [andb]. rewrite Hb, <- norm_truthy.
        replace (norm (Some (field_of m (join_path (required_path m t))))) with (loaded_value m (required_path m t)); [reflexivity|].
        apply andb_true_iff in Eo as [Eo _]. apply Nat.ltb_lt in Eo. unfold loaded_value.
        destruct (required_path m t); [cbn in Eo; lia|reflexivity].
      * apply (IH W (required_path m t) b ld' (earlier ++ [b]) (Some t)); auto.
        -- discriminate.
        -- intros t' b' Hin. apply Hg. now right.
  - unfold ev_words, ev_skeleton in *. cbn [flat_map evsub app map wrs] in *. eapply IH; eauto.
Qed.
End Doc.

Lemma charb_words sp l : (filter (charb sp) (flat_map tok_marks (words sp l)) = filter (charb sp) (flat_map tok_marks l)) /\
  (filter (charb sp) (flat_map item_marks (words sp l)) = filter (charb sp) (flat_map item_marks l)).
Proof.
  induction l as [|[s t|] l [IH1 IH2]]; [split; reflexivity| |].
  - cbn [words filter]. fold (words sp l). destruct (blank sp s) eqn:Eb; cbn [negb flat_map]; rewrite !filter_app, IH1, IH2.
    + cbn [tok_marks item_marks]. rewrite !ink_text, !chars_blank by exact Eb. split; reflexivity.
    + split; reflexivity.
  - cbn [words filter flat_map app]. fold (words sp l). cbn [tok_marks item_marks app filter charb]. split; assumption.
Qed.
Lemma charb_line sp f (l : line) :
  filter (charb sp) (flat_map tok_marks (map (fun t => ITok (tx t) (f t)) l)) = map Some (flags sp f l).
Proof.
  rewrite flags_chars. induction l as [|t l IH]; [reflexivity|]. cbn [map flat_map]. rewrite filter_app, IH. f_equal.
  cbn [tok_marks]. apply ink_text.
Qed.

(* ---------------------------------------------------------------- *)
(** ** Theorems *)

(** Exactly what is loaded as sub tags after saving. *)
Theorem C07_reloaded_subs : forall sp wd up lo node_ok mapping name ls r ls',
  name <> [] ->
  lines_to_tei sp node_ok mapping name ls = Ok r ->
  new_document sp wd up lo mapping true [r] = Ok ls' ->
  (forall t, In t (concat ls) -> is_space sp t = false -> found_again sp node_ok mapping ls t) ->
  map Some (flags sp psub (concat ls')) = reloaded_subs sp mapping None false [] (lines_items ls).
Proof.
  intros sp wd up lo node_ok m name ls r ls' Hn H H' Hk.
  pose proof (lines_to_tei_filled _ _ _ _ _ _ H) as Hfl.
  destruct (reload_setup sp node_ok m name ls r Hn H Hk)
    as (evs & W & text & cs & Er & L1 & L3 & L4 & L5 & L6 & L7 & L8 & Hf & Ht & Hname & Hgood).
  subst r. set (r := Elem name [] text cs []) in *.
  pose proof (C57_sub_tags _ _ _ _ _ _ _ Hname H') as Hit.
  rewrite <- charb_line, <- (proj1 (charb_words _ _)), Hit, rename_marks.
  2:{ apply incl_Forall with (l1 := container_sub_items sp wd up lo (map snd m) r).
      - intros x Hx. unfold words in Hx. apply filter_In in Hx. tauto.
      - apply prefixed_container_subs. }
  rewrite filter_ink_lift3, (proj2 (charb_words _ _)). unfold r.
  rewrite (container_sub_marks sp wd up lo (map snd m) (flat [] r)) by (auto; reflexivity).
  transitivity (map (lift3 (field_of m)) (filter (charb sp) (smarks sp (map snd m) (flat [] r) [] (flat_map flat_ev evs)))).
  { do 3 f_equal. exact L1. }
  rewrite (smarks_evsub sp node_ok m (map snd m) (flat [] r) evs W [] [] false []); auto.
  - rewrite (evsub_wrs sp node_ok m evs W [] [] false [] None); auto.
    + rewrite L5, L3, <- wrs_reloaded, lines_items_toks. reflexivity.
    + intros t b Hin. apply (Hgood t b Hin).
  - intros t b Hin. apply (Hgood t b Hin).
  - unfold inv. split; [intros p []|]. split; [|split; now left].
    destruct (next_word sp evs) as [[w b]|]; [|exact I]. intros -> C. congruence.
Qed.

(** The sub tag of a word denotes a path strictly below the one of the main tag, and
    is loaded as this tag. *)
Definition keeps_sub (m : list (str * str)) (t : tok) : Prop :=
  forall v, value (shown_sub_tag t) = Some v ->
    v <> [] /\ loaded_value m (tag_path m (Some v)) = Some v /\
    let p := tag_path m (value (shown_tag t)) in
    p <> [] /\ prefix p (tag_path m (Some v)) /\ p <> tag_path m (Some v).
(** Words with a sub tag that is no begin tag continue the word before on the same
    line: it has the same tags, and no main tag begins here or on a space between. *)
Fixpoint subs_continue (sp : N -> bool) (prev : option tok) (rs : list str) (l : list (option tok)) : Prop :=
  match l with
  | [] => True
  | None :: l' => subs_continue sp None rs l'
  | Some t :: l' =>
      if is_space sp t
      then subs_continue sp prev (match begins t with Some v => v :: rs | None => rs end) l'
      else
        (forall v, begin (shown_sub_tag t) = false -> value (shown_sub_tag t) = Some v ->
           begin (shown_tag t) = false /\ omem (value (shown_tag t)) rs = false /\
           exists t0, prev = Some t0 /\ value (shown_sub_tag t0) = Some v /\ value (shown_tag t0) = value (shown_tag t))
        /\ subs_continue sp (Some t) [] l'
  end.

Lemma truthy_value v o : value o = Some v -> v <> [] -> truthy o = true.
Proof.
  destruct o as [[|c s]|]; try reflexivity; unfold value, split_tag_prefix; cbn.
  - intros E. injection E as <-. congruence.
  - discriminate.
Qed.
Lemma required_sub m t v : keeps_sub m t -> value (shown_sub_tag t) = Some v ->
  sub_path m t = Some (tag_path m (Some v)) /\ required_path m t = tag_path m (Some v).
Proof.
  intros Hk Hv. destruct (Hk v Hv) as (H1 & _ & _ & H3 & _).
  assert (Hs : sub_path m t = Some (tag_path m (Some v))).
  { unfold sub_path. change (sub_full_tag t) with (shown_sub_tag t). rewrite (truthy_value v _ Hv H1). cbv zeta.
    change (tag_required_path m (strip_tag_prefix (shown_sub_tag t))) with (tag_path m (value (shown_sub_tag t))). rewrite Hv.
    rewrite <- main_tag_path in H3. now rewrite (proj2 (starts_prefix _ _) H3). }
  split; [exact Hs|]. unfold required_path. now rewrite Hs.
Qed.
Lemma common_same p : common_path p p = p.
Proof.
  apply prefix_antisym; [apply common_prefix_l|]. apply common_greatest; apply prefix_refl.
Qed.

Lemma opens_begin m prev rs t v : keeps_sub m t -> value (shown_sub_tag t) = Some v -> begin (shown_sub_tag t) = true ->
  opens m prev rs t = true.
Proof.
  intros Hk Hv Hb. destruct (required_sub m t v Hk Hv) as [Hs Hr]. destruct (Hk v Hv) as (_ & _ & H2 & H3 & H4).
  unfold opens. apply Nat.ltb_lt. set (path := match prev with Some t0 => _ | None => _ end). unfold keep.
  rewrite shown_split, shown_sub_split. cbn [fst]. fold (begin (shown_tag t)) (begin (shown_sub_tag t)). rewrite Hb, Hs, Hr.
  set (q := tag_path m (Some v)) in *. rewrite <- main_tag_path in H2, H3, H4.
  assert (Hq : length (main_path m t) <= length q) by now apply prefix_length.
  assert (Hm : 0 < length (main_path m t)) by (destruct (main_path m t); [congruence|cbn; lia]).
  destruct (begin (shown_tag t)).
  { pose proof (prefix_length _ _ (common_prefix_r path (removelast (main_path m t)))) as HL. rewrite removelast_length in HL. lia. }
  destruct (omem _ rs); [exact (Nat.lt_le_trans _ _ _ Hm Hq)|].
  pose proof (prefix_length _ _ (common_prefix_r path (removelast q))) as HL. rewrite removelast_length in HL. lia.
Qed.

Lemma subs_same sp m l : forall prevR lead prev rs,
  (forall t, In (Some t) l -> is_space sp t = false -> keeps_sub m t) ->
  (forall t0, prev = Some t0 -> prevR = Some t0 /\ keeps_sub m t0 /\ (forall v, value (shown_sub_tag t0) = Some v -> lead = true)) ->
  subs_continue sp prev rs l ->
  reloaded_subs sp m prevR lead rs l =
  flat_map (fun o => match o with Some t => chars sp (tx t) (norm (value (shown_sub_tag t))) (begin (shown_sub_tag t)) | None => [] end) l.
Proof.
  induction l as [|[t|] l IH]; intros prevR lead prev rs Hk Hp Hw; [reflexivity| |].
  - assert (Hk' : forall t', In (Some t') l -> is_space sp t' = false -> keeps_sub m t') by (intros; apply Hk; [now right|assumption]).
    cbn [flat_map reloaded_subs subs_continue] in *. destruct (is_space sp t) eqn:Es.
    { rewrite (chars_blank sp (tx t) _ _ Es). cbn [app]. now apply (IH _ _ prev). }
    cbv zeta. destruct Hw as [Hw1 Hw2]. pose proof (Hk t (or_introl eq_refl) Es) as Hkt.
    set (lead' := opens m prevR rs t || _).
    destruct (value (shown_sub_tag t)) as [v|] eqn:Ev.
    + destruct (required_sub m t v Hkt Ev) as [Hs Hr]. destruct (Hkt v Ev) as (H1 & H2 & H3 & H4 & H5).
      assert (Hlen : length (tag_path m (value (shown_tag t))) <? length (required_path m t) = true).
      { rewrite Hr. apply Nat.ltb_lt. destruct H4 as [x Hx]. destruct x as [|y x]; [rewrite app_nil_r in Hx; congruence|].
        rewrite Hx, app_length. cbn. lia. }
      assert (Hst : lead' = true /\ opens m prevR rs t = begin (shown_sub_tag t)).
      { destruct (begin (shown_sub_tag t)) eqn:Eb.
        - unfold lead'. rewrite (opens_begin m prevR rs t v Hkt Ev Eb). split; reflexivity.
        - destruct (Hw1 v eq_refl eq_refl) as (B1 & B2 & t0 & -> & B3 & B4).
          destruct (Hp t0 eq_refl) as (-> & Hk0 & Hl0). pose proof (Hl0 v B3) as Hlt.
          destruct (required_sub m t0 v Hk0 B3) as [_ Hr0].
          assert (Ho : opens m (Some t0) rs t = false).
          { unfold opens. apply Nat.ltb_ge. unfold keep. rewrite shown_split, shown_sub_split. cbn [fst].
            fold (begin (shown_tag t)) (begin (shown_sub_tag t)). rewrite B1, B2, Eb, Hr0, Hr, common_same. reflexivity. }
          split; [|exact Ho]. unfold lead'. rewrite Ho, Hr0, Hr, Hlt. cbn [orb andb]. now apply path_eqb_true. }
      destruct Hst as [Hl Ho]. rewrite Hl, Ho, Hlen. cbn [andb].
      replace (match tag_path m (value (shown_tag t)) with [] => None | _ => loaded_value m (required_path m t) end) with (Some v).
      2:{ rewrite Hr, H2. destruct (tag_path m (value (shown_tag t))); [congruence|reflexivity]. }
      destruct v as [|c v]; [congruence|]. cbn [truthy andb norm]. f_equal.
      apply (IH _ _ (Some t)); auto. intros t0 E. injection E as <-. auto.
    + replace (match tag_path m (value (shown_tag t)) with [] => None | _ => _ end) with (@None str).
      2:{ assert (Hs : required_path m t = main_path m t).
          { unfold required_path, sub_path. change (sub_full_tag t) with (shown_sub_tag t).
            destruct (truthy (shown_sub_tag t)) eqn:Et; [|reflexivity]. exfalso.
            destruct (shown_sub_tag t) as [[|c s]|]; try discriminate. revert Ev. unfold value, split_tag_prefix.
            destruct (starts_with _ _); [discriminate|]. destruct (starts_with _ _); discriminate. }
          rewrite Hs, main_tag_path, Nat.ltb_irrefl. cbn [andb]. now destruct (tag_path m _). }
      rewrite (value_none _ Ev). cbn [truthy andb norm]. f_equal. apply (IH _ _ (Some t)); auto. intros t0 E. injection E as <-.
      split; [reflexivity|]. split; [exact Hkt|]. intros v C. congruence.
  - cbn [flat_map app reloaded_subs subs_continue] in *. apply (IH _ _ None); auto; [|discriminate].
    intros; apply Hk; [now right|assumption].
Qed.
Lemma flags_items sp f ls :
  flat_map (fun o => match o with Some t => chars sp (tx t) (norm (value (f t))) (begin (f t)) | None => [] end) (lines_items ls)
  = map Some (flags sp f (concat ls)).
Proof.
  rewrite flags_chars, <- lines_items_toks. induction (lines_items ls) as [|[t|] l IH]; [reflexivity| |]; cbn [flat_map app]; now rewrite IH.
Qed.
Lemma flags_concat sp f ls : flags sp f (concat ls) = concat (map (flags sp f) ls).
Proof.
  induction ls as [|l ls IH]; [reflexivity|]. cbn [concat map]. rewrite <- IH. apply flat_map_app.
Qed.
Lemma flags_length sp f g l : length (flags sp f l) = length (flags sp g l).
Proof.
  assert (G : forall h, map (fun x => fst (fst x)) (flags sp h l) = flat_map (fun t => filter (fun c => negb (sp c)) (tx t)) l).
  { intros h. induction l as [|t l IH]; [reflexivity|]. cbn [flags flat_map]. fold (flags sp h l). rewrite map_app, IH. f_equal.
    assert (K : forall v s, map (fun x => fst (fst x)) (filter (fun x => negb (sp (fst (fst x)))) (map (fun c => (c, v : ostr, false)) s))
       = filter (fun c => negb (sp c)) s).
    { intros v s. induction s as [|d s IHs]; [reflexivity|]. cbn [map filter fst]. destruct (negb (sp d)); cbn [map fst]; now rewrite IHs. }
    destruct (tx t) as [|c s]; [reflexivity|]. cbn [filter fst]. destruct (negb (sp c)); cbn [map fst]; now rewrite K. }
  rewrite <- (map_length (fun x => fst (fst x)) (flags sp f l)), <- (map_length (fun x => fst (fst x)) (flags sp g l)), !G. reflexivity.
Qed.
Lemma concat_same {A} (l1 : list (list A)) : forall l2, map (@length A) l1 = map (@length A) l2 -> concat l1 = concat l2 -> l1 = l2.
Proof.
  induction l1 as [|a l1 IH]; intros [|b l2] H1 H2; try discriminate; [reflexivity|]. cbn in *. injection H1 as Hl H1.
  assert (Ha : a = b).
  { rewrite <- (firstn_all a), <- (firstn_all b). rewrite <- (app_nil_r (firstn (length a) a)), <- (app_nil_r (firstn (length b) b)).
    apply (f_equal (firstn (length a))) in H2. rewrite !firstn_app, Hl, !Nat.sub_diag, !firstn_O in H2. rewrite <- Hl in H2 at 1. exact H2. }
  subst b. f_equal. apply IH; [exact H1|]. now apply app_inv_head in H2.
Qed.

(** Lines, characters, sub tags and begin sub tags are the same after saving and loading. *)
Theorem C07_sub_tags : forall sp wd up lo node_ok mapping name ls r ls' l0 last,
  name <> [] ->
  lines_to_tei sp node_ok mapping name ls = Ok r ->
  new_document sp wd up lo mapping true [r] = Ok ls' ->
  (forall t, In t (concat ls) -> is_space sp t = false ->
     found_again sp node_ok mapping ls t /\ keeps_value mapping t /\ keeps_sub mapping t) ->
  well_tagged sp mapping None [] (concat ls) ->
  subs_continue sp None [] (lines_items ls) ->
  ls = l0 ++ [last] -> (exists t, In t last /\ is_space sp t = false) ->
  map (flags sp ptag) ls' = map (flags sp shown_tag) ls /\
  map (flags sp psub) ls' = map (flags sp shown_sub_tag) ls.
Proof.
  intros sp wd up lo node_ok m name ls r ls' l0 last Hn H H' Hk Hw Hsub Hls Hlast.
  assert (Hmain : map (flags sp ptag) ls' = map (flags sp shown_tag) ls).
  { eapply C07_prefixes; eauto. intros t H1 H2. destruct (Hk t H1 H2) as (? & ? & _). auto. }
  split; [exact Hmain|].
  assert (HS : map Some (flags sp psub (concat ls')) = reloaded_subs sp m None false [] (lines_items ls)).
  { eapply C07_reloaded_subs; eauto. intros t H1 H2. now apply Hk. }
  rewrite (subs_same sp m _ _ _ None), flags_items in HS; auto; [| |discriminate].
  - assert (HS' : flags sp psub (concat ls') = flags sp shown_sub_tag (concat ls)).
    { revert HS. generalize (flags sp psub (concat ls')) (flags sp shown_sub_tag (concat ls)). intros x.
      induction x as [|p x IH]; intros [|q y] E; try discriminate; [reflexivity|]. cbn in E. injection E as -> E. f_equal. now apply IH. }
    rewrite !flags_concat in HS'. apply concat_same; [|exact HS'].
    rewrite !map_map. apply (f_equal (map (@length _))) in Hmain. rewrite !map_map in Hmain.
    etransitivity; [|etransitivity; [exact Hmain|]]; apply map_ext; intros l; apply flags_length.
  - intros t Hin Hs. apply Hk; [|exact Hs]. rewrite <- lines_items_toks. apply in_flat_map. exists (Some t). split; [exact Hin|now left].
Qed.

(* ---------------------------------------------------------------- *)
(** ** Examples *)
Definition ex_slines : list line :=
  [[mk "A" (Some (u "b-title")) None; mk " " None None; mk "title" (Some (u "i-title")) None];
   [mk "by" (Some (u "b-byline")) None; mk " " None None; mk "John" (Some (u "i-byline")) (Some (u "b-author"));
    mk " " None None; mk "Smith" (Some (u "i-byline")) (Some (u "i-author")); mk " " None None;
    mk "and" (Some (u "i-byline")) None; mk " " None None];
   [mk "Ann" (Some (u "i-byline")) (Some (u "b-author"));
    mk "," (Some (u "i-byline")) None; mk "Bo" (Some (u "i-byline")) (Some (u "b-author")); mk "2020" None None]].
Lemma tagged_space sp m prev rs t l : is_space sp t = true ->
  well_tagged sp m prev (match begins t with Some v => v :: rs | None => rs end) l -> well_tagged sp m prev rs (t :: l).
Proof. intros H. cbn [well_tagged]. now rewrite H. Qed.
Lemma tagged_word sp m prev rs t l : is_space sp t = false ->
  (forall v, begin (shown_tag t) = false -> value (shown_tag t) = Some v ->
     ~ In v rs /\ (exists t0, prev = Some t0 /\ value (shown_tag t0) = Some v) /\
     (begin (shown_sub_tag t) = true ->
        let q := tag_path m (value (shown_sub_tag t)) in prefix (path_of m v) q /\ q <> path_of m v)) ->
  well_tagged sp m (Some t) [] l -> well_tagged sp m prev rs (t :: l).
Proof. intros H A B. cbn [well_tagged]. rewrite H. auto. Qed.
Lemma subs_break sp prev rs l : subs_continue sp None rs l -> subs_continue sp prev rs (None :: l).
Proof. auto. Qed.
Lemma subs_space sp prev rs t l : is_space sp t = true ->
  subs_continue sp prev (match begins t with Some v => v :: rs | None => rs end) l -> subs_continue sp prev rs (Some t :: l).
Proof. intros H. cbn [subs_continue]. now rewrite H. Qed.
Lemma subs_word sp prev rs t l : is_space sp t = false ->
  (forall v, begin (shown_sub_tag t) = false -> value (shown_sub_tag t) = Some v ->
     begin (shown_tag t) = false /\ omem (value (shown_tag t)) rs = false /\
     exists t0, prev = Some t0 /\ value (shown_sub_tag t0) = Some v /\ value (shown_tag t0) = value (shown_tag t)) ->
  subs_continue sp (Some t) [] l -> subs_continue sp prev rs (Some t :: l).
Proof. intros H A B. cbn [subs_continue]. rewrite H. auto. Qed.
Example C07_sub_tags_ex :
  (forall t, In t (concat ex_slines) -> is_space ascii_space t = false ->
     found_again ascii_space any_node ex_pmapping ex_slines t /\ keeps_value ex_pmapping t /\ keeps_sub ex_pmapping t) /\
  well_tagged ascii_space ex_pmapping None [] (concat ex_slines) /\
  subs_continue ascii_space None [] (lines_items ex_slines) /\
  exists r ls', lines_to_tei ascii_space any_node ex_pmapping (u "front") ex_slines = Ok r /\
    new_document ascii_space ascii_word ascii_upper ascii_lower ex_pmapping true [r] = Ok ls' /\
    map (fun l => map (fun t => (tx t, psub t)) (filter (fun t => negb (is_space ascii_space t)) l)) ls' =
     [[(u "A", None); (u "title", None)];
      [(u "by", None); (u "John", Some (u "b-author")); (u "Smith", Some (u "i-author")); (u "and", None)];
      [(u "Ann", Some (u "b-author")); (u ",", None); (u "Bo", Some (u "b-author")); (u "2020", None)]].
Proof.
  split; [|split; [|split]].
  - assert (G : forallb (fun t => found_againb ascii_space any_node ex_pmapping ex_slines t) (filter (fun t => negb (is_space ascii_space t)) (concat ex_slines)) = true)
      by (vm_compute; reflexivity).
    rewrite forallb_forall in G. intros t Ht Hs. split; [|split].
    + apply found_againb_ok, G. apply filter_In. rewrite Hs. auto.
    + cbn [concat ex_slines app] in Ht. repeat (destruct Ht as [<-|Ht]; [first [discriminate Hs|split; [discriminate|vm_compute; reflexivity]]|]).
      destruct Ht.
    + cbn [concat ex_slines app] in Ht. repeat (destruct Ht as [<-|Ht]; [first [discriminate Hs|intros v Hv; first [discriminate Hv|
        injection Hv as <-; split; [discriminate|]; split; [vm_compute; reflexivity|]; cbv zeta; split; [vm_compute; discriminate|];
        split; [exists [u "docAuthor"]; reflexivity|vm_compute; discriminate]]]|]).
      destruct Ht.
  - cbn [concat ex_slines app].
    repeat match goal with |- well_tagged _ _ _ _ (_ :: _) => first [simple apply tagged_space; [reflexivity|] | simple apply tagged_word; [reflexivity
      |intros v Hb Hv; first [discriminate Hb | discriminate Hv |
         injection Hv as <-; split; [intros [] |]; split; [eexists; split; reflexivity|]; intros Hq; first [discriminate Hq|
         split; [exists [u "docAuthor"]; reflexivity|vm_compute; discriminate]]]
      |]] end.
    exact I.
  - cbn [lines_items ex_slines app map flat_map].
    repeat match goal with |- subs_continue _ _ _ (None :: _) => simple apply subs_break | |- subs_continue _ _ _ (Some _ :: _) => first [simple apply subs_space; [reflexivity|] | simple apply subs_word; [reflexivity
      |intros v Hb Hv; first [discriminate Hb | discriminate Hv |
         injection Hv as <-; split; [reflexivity|]; split; [reflexivity|]; eexists; split; [reflexivity|]; split; reflexivity]
      |]] end.
    exact I.
  - eexists _, _. split; [vm_compute; reflexivity|]. split; [vm_compute; reflexivity|]. vm_compute. reflexivity.
Qed.

(** After a line break the sub tag is lost, although nothing begins there. *)
Theorem C07_sub_tags_refuted : exists ls r ls',
  lines_to_tei ascii_space any_node ex_pmapping (u "front") ls = Ok r /\
  new_document ascii_space ascii_word ascii_upper ascii_lower ex_pmapping true [r] = Ok ls' /\
  map (map shown_sub_tag) ls = [[None; Some (u "b-author")]; [Some (u "i-author")]] /\
  map (map psub) ls' = [[None; Some (u "b-author")]; [None]] /\
  map (map ptag) ls' = map (map shown_tag) ls.
Proof.
  exists [[mk "by" (Some (u "b-byline")) None; mk "John" (Some (u "i-byline")) (Some (u "b-author"))];
          [mk "Smith" (Some (u "i-byline")) (Some (u "i-author"))]].
  eexists _, _. repeat (split; [vm_compute; reflexivity|]). vm_compute. reflexivity.
Qed.

Print Assumptions C07_reloaded_subs.
Print Assumptions C07_sub_tags.
Print Assumptions C07_sub_tags_ex.
Print Assumptions C07_sub_tags_refuted.
