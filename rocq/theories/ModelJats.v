(** Model of fix_jats_xml.py: changes to the references of a JATS document (L130-238, L404-822).
    Trees as in lxml: [None] and the empty text are different (an empty text that has been set
    stays the empty text).
    The code gets a list of elements with XPath and then changes the tree element by element.
    Here the elements of the list get marks, in document order, and the change is made at
    the element with mark 0, 1, ... An element that is gone (it was in an element that has been
    removed) is skipped; the code would change the removed part, which is not seen, but could raise.
    Texts are not checked for characters that XML forbids. *)
From Verif Require Import Base ModelDownload ModelJatsText.
Open Scope nat_scope.

(** [El mark name attrib text kids tail]; [Mi]: comments and processing instructions *)
Inductive node :=
| El (mk : option nat) (name : str) (attrib : list (str * str)) (text : ostr) (kids : list node) (tail : ostr)
| Mi (tail : ostr).

Definition ntail (e : node) : ostr := match e with El _ _ _ _ _ t => t | Mi t => t end.
Definition set_tail (t : ostr) (e : node) : node := match e with El m n a x k _ => El m n a x k t | Mi _ => Mi t end.
Definition has_mark (k : nat) (e : node) : bool := match e with El (Some j) _ _ _ _ _ => Nat.eqb k j | _ => false end.
Definition set_mark (m : option nat) (e : node) : node := match e with El _ n a x k t => El m n a x k t | Mi t => Mi t end.
(** [text or ''] *)
Definition otext (t : ostr) : str := match t with Some s => s | None => [] end.
(** [get_text_content] *)
Fixpoint content (e : node) : str :=
  match e with
  | El _ _ _ x kids _ => otext x ++ flat_map (fun c => content c ++ otext (ntail c)) kids
  | Mi _ => []
  end.
Definition flow (l : list node) : str := flat_map (fun c => content c ++ otext (ntail c)) l.

(* ---------------------------------------------------------------- *)
(** ** Changing the elements of a list one by one *)
(** [p]: the elements of the list, among the descendants *)
Fixpoint label (p : node -> bool) (n : nat) (e : node) : nat * node :=
  match e with
  | El _ nm a x kids t =>
      let (n', kids') :=
        (fix go (n : nat) (l : list node) : nat * list node :=
           match l with
           | [] => (n, [])
           | c :: l' =>
               let (n2, c') := label p (if p c then S n else n) c in
               let (n3, l'') := go n2 l' in
               (n3, set_mark (if p c then Some n else None) c' :: l'')
           end) n kids in
      (n', El None nm a x kids' t)
  | Mi t => (n, Mi t)
  end.
Fixpoint unmark (e : node) : node :=
  match e with El _ n a x kids t => El None n a x (map unmark kids) t | Mi t => Mi t end.

(** A change: gets the text before the element (the tail of its previous sibling or the text
    of its parent) and the element; gives the new text before it, what replaces the element, and
    whether to stop. *)
Definition change := ostr -> node -> res (ostr * list node * bool).
(** the change at the element with mark [k], if it is there *)
Fixpoint at_node (act : change) (k : nat) (e : node) : res (option (node * bool)) :=
  match e with
  | Mi _ => Ok None
  | El m nm a x kids t =>
      do r <- (fix at_kids (prev : ostr) (l : list node) : res (option (ostr * list node * bool)) :=
                 match l with
                 | [] => Ok None
                 | c :: l' =>
                     if has_mark k c then
                       do r <- act prev c ;;
                       let '(p', new, stop) := r in Ok (Some (p', new ++ l', stop))
                     else
                       do r <- at_node act k c ;;
                       match r with
                       | Some (c', stop) => Ok (Some (prev, c' :: l', stop))
                       | None =>
                           do r <- at_kids (ntail c) l' ;;
                           match r with
                           | Some (t', l'', stop) => Ok (Some (prev, set_tail t' c :: l'', stop))
                           | None => Ok None
                           end
                       end
                 end) x kids ;;
      match r with Some (x', kids', stop) => Ok (Some (El m nm a x' kids' t, stop)) | None => Ok None end
  end.
Fixpoint loop (act : change) (k n : nat) (e : node) : res node :=
  match n with
  | 0 => Ok e
  | S n' =>
      do r <- at_node act k e ;;
      match r with
      | None => loop act (S k) n' e
      | Some (e', true) => Ok e'
      | Some (e', false) => loop act (S k) n' e'
      end
  end.
(** [for element in reference_element.xpath(...): ...] *)
Definition each (p : node -> bool) (act : change) (e : node) : res node :=
  let (n, e') := label p 0 e in
  do r <- loop act 0 n e' ;; Ok (unmark r).
(** [if reference_element.xpath(...)] *)
Fixpoint any (p : node -> bool) (e : node) : bool :=
  match e with El _ _ _ _ kids _ => existsb (fun c => p c || any p c) kids | Mi _ => false end.

(* ---------------------------------------------------------------- *)
(** ** Elements *)
Definition named (name : string) (e : node) : bool := match e with El _ n _ _ _ _ => streq n (u name) | Mi _ => false end.
Definition attr (k : str) (e : node) : ostr := match e with El _ _ a _ _ _ => dict_get k a | Mi _ => None end.
Definition PUB_ID_TYPE : str := u "pub-id-type".
Definition HREF : str := u "{http://www.w3.org/1999/xlink}href".
(** L50-60: [JatsXpaths] *)
Definition pub_id (e : node) : bool := named "pub-id" e.
Definition pub_id_of (type : string) (e : node) : bool := pub_id e && ostreq (attr PUB_ID_TYPE e) (Some (u type)).
Definition article_title (e : node) : bool := named "article-title" e.
Definition ext_link (e : node) : bool := named "ext-link" e.
Definition mixed_citation (e : node) : bool := named "mixed-citation" e.

(** L139-143 ([E(...)]), without a tail *)
Definition new_pub_id (type : string) (text : str) : node := El None (u "pub-id") [(PUB_ID_TYPE, u type)] (Some text) [] None.
(** L210-216 *)
Definition add_text_to_previous (prev : ostr) (text : str) : ostr := Some (otext prev ++ text).

Definition finder := str -> res (option (nat * nat)).
Definition slice (text : str) (i j : nat) : str := firstn (j - i) (skipn i text).

(** L404-420: [change_annotation_to_matching_text]; L223-225: [remove] takes the tail with it *)
Definition change_annotation (find : finder) : change := fun prev e =>
  match e with
  | El m nm a (Some text) kids t =>
      do r <- find text ;;
      match r with
      | None => Ok (add_text_to_previous prev text, [], false)
      | Some (i, j) =>
          Ok (add_text_to_previous prev (firstn i text),
              [El m nm a (Some (slice text i j)) kids (Some (skipn j text ++ otext t))], false)
      end
  | _ => Ok (prev, [e], false)
  end.

(** *** Adding annotations *)
(** L431-455; the element and the new element, which goes in front of its children *)
Definition annotate_text (find : finder) (create : str -> node) (e : node) : res (option node) :=
  match e with
  | El m nm a (Some ((_ :: _) as text)) kids t =>
      do r <- find text ;;
      match r with
      | None => Ok None
      | Some (i, j) => Ok (Some (El m nm a (Some (firstn i text)) (set_tail (Some (skipn j text)) (create (slice text i j)) :: kids) t))
      end
  | _ => Ok None
  end.
(** the same with [as_next_sibling]: the element and what comes after it *)
Definition annotate_comment (find : finder) (create : str -> node) (e : node) : res (option (list node)) :=
  match e with
  | El m nm a (Some ((_ :: _) as text)) kids t =>
      do r <- find text ;;
      match r with
      | None => Ok None
      | Some (i, j) => Ok (Some [El m nm a (Some (firstn i text)) kids t; set_tail (Some (skipn j text)) (create (slice text i j))])
      end
  | _ => Ok None
  end.
(** L458-480 *)
Definition annotate_tail (find : finder) (create : str -> node) (e : node) : res (option (list node)) :=
  match ntail e with
  | Some ((_ :: _) as text) =>
      do r <- find text ;;
      match r with
      | None => Ok None
      | Some (i, j) => Ok (Some [set_tail (Some (firstn i text)) e; set_tail (Some (skipn j text)) (create (slice text i j))])
      end
  | _ => Ok None
  end.
(** the first child for which this works; [sel]: the children of the XPath *)
Fixpoint first_kid (sel : node -> bool) (f : node -> res (option (list node))) (l : list node) : res (option (list node)) :=
  match l with
  | [] => Ok None
  | c :: l' =>
      do r <- (if sel c then f c else Ok None) ;;
      match r with
      | Some new => Ok (Some (new ++ l'))
      | None => do r <- first_kid sel f l' ;; Ok (option_map (cons c) r)
      end
  end.
Definition is_element (e : node) : bool := match e with El _ _ _ _ _ _ => true | Mi _ => false end.
(** L483-510; [True]: stop *)
Definition annotate (find : finder) (create : str -> node) (parse_comment : bool) : change := fun prev e =>
  do r <- annotate_text find create e ;;
  match r with
  | Some e' => Ok (prev, [e'], true)
  | None =>
      match e with
      | Mi _ => Ok (prev, [e], false)
      | El m nm a x kids t =>
          do r <- first_kid is_element (annotate_tail find create) kids ;;
          match r with
          | Some kids' => Ok (prev, [El m nm a x kids' t], true)
          | None =>
              if parse_comment then
                do r <- first_kid (named "comment") (annotate_comment find create) kids ;;
                match r with
                | Some kids' => Ok (prev, [El m nm a x kids' t], false)
                | None => Ok (prev, [e], false)
                end
              else Ok (prev, [e], false)
          end
      end
  end.
(** L513-523 *)
Definition add_annotation (find : finder) (create : str -> node) (parse_comment : bool) (ref : node) : res node :=
  each mixed_citation (annotate find create parse_comment) ref.

(* ---------------------------------------------------------------- *)
(** ** The steps *)
Section Steps.
Variables sp wd dg : N -> bool.
Variable token_at : str -> bool.
Variables nopunct nopunct_space : str -> str.
(** the other regular expressions (L83-91): the first group *)
Variables find_pii_valid find_pii_other find_pmid find_pmid_fix find_pmcid find_wos find_doi_url_prefix : str -> option (nat * nat).
(** L365-370: [m.start(2)] *)
Variable repeated_doi : str -> option nat.
Variable lower : str -> str.

Definition finding (f : str -> option (nat * nat)) : finder := fun t => Ok (f t).
Definition find_doi : finder := find_doi_start_end sp wd dg token_at nopunct nopunct_space.
Definition find_title : finder := fun t => Ok (Some (find_article_title_start_end sp dg t)).
(** L365-377 *)
Definition find_ext_link (text : str) : nat * nat :=
  if contains (u "doi.org") text
  then match repeated_doi text with Some n => (0, n) | None => (0, length text) end
  else (0, length text).

(** L104-127 *)
Definition KNOWN_PUB_ID_TYPES : list str :=
  [u "accession"; u "archive"; u "ark"; u "art-access-id"; u "arxiv"; u "coden"; u "doaj"; u "doi"; u "handle"; u "index"; u "isbn";
   u "manuscript"; u "medline"; u "mr"; u "other"; u "pii"; u "pmcid"; u "pmid"; u "publisher-id"; u "sici"; u "std-designation"; u "zbl"].
(** L727-735 *)
Definition lower_type : change := fun prev e =>
  match e with
  | El m nm a x kids t =>
      match dict_get PUB_ID_TYPE a with
      | Some ((_ :: _) as ty) =>
          if mem (lower ty) KNOWN_PUB_ID_TYPES then Ok (prev, [El m nm (dict_set PUB_ID_TYPE (lower ty) a) x kids t], false) else Ok (prev, [e], false)
      | _ => Ok (prev, [e], false)
      end
  | Mi _ => Ok (prev, [e], false)
  end.
Definition convert_types (ref : node) : res node := each pub_id lower_type ref.

(** *** Titles *)
(** L68-76 *)
Definition right_quote (c : N) : option N :=
  if N.eqb c DQUOTE then Some DQUOTE else if N.eqb c LSQUO then Some RSQUO else if N.eqb c LDQUO then Some RSQUO else None.
(** the last child with [children[-1].tail] cut: what is left and what is cut off *)
Fixpoint cut_last (f : str -> str * str) (l : list node) : list node * str :=
  match l with
  | [] => ([], [])
  | [c] => match ntail c with Some ((_ :: _) as t) => ([set_tail (Some (fst (f t))) c], snd (f t)) | _ => ([c], []) end
  | c :: l' => let (l'', s) := cut_last f l' in (c :: l'', s)
  end.
Definition last_tail (l : list node) : ostr := match rev l with c :: _ => ntail c | [] => None end.
(** L572-588 *)
Definition remove_quotes (prev : ostr) (e : node) : ostr * node :=
  match e with
  | Mi _ => (prev, e)
  | El m nm a x kids t =>
      let text := content e in
      match text with
      | c :: ((_ :: _) as rest) =>
          let cut_first := match x with
                           | Some (c0 :: x') => (add_text_to_previous prev [c0], Some x')
                           | _ => (prev, x)
                           end in
          if has_quotes text 0 (length text) then
            let (prev', x') := cut_first in
            if truthy (last_tail kids) then
              let (kids', s) := cut_last (fun s => (firstn (length s - 1) s, skipn (length s - 1) s)) kids in
              (prev', El m nm a x' kids' (Some (s ++ otext t)))
            else (prev', El m nm a x' kids t)
          else
            match right_quote c with
            | Some q => if existsb (N.eqb q) rest then (prev, e) else let (prev', x') := cut_first in (prev', El m nm a x' kids t)
            | None => (prev, e)
            end
      | _ => (prev, e)
      end
  end.
Definition comma_or_space (c : N) : bool := N.eqb c 44 || N.eqb c 32.
(** L591-601 *)
Definition remove_comma (e : node) : node :=
  match e with
  | Mi _ => e
  | El m nm a x kids t =>
      let text := content e in
      let more := length text - length (rstrip_by comma_or_space text) in
      if more =? 0 then e
      else if truthy (last_tail kids) then
        let (kids', s) := cut_last (fun s => (firstn (length s - more) s, skipn (length s - more) s)) kids in
        El m nm a x kids' (Some (s ++ otext t))
      else e
  end.
Definition clean_title : change := fun prev e => let (prev', e') := remove_quotes prev e in Ok (prev', [remove_comma e'], false).
(** L604-611 *)
Definition fix_article_title (ref : node) : res node :=
  do ref <- each article_title (change_annotation find_title) ref ;;
  each article_title clean_title ref.

(** *** DOIs *)
(** L614-618 *)
Definition fix_doi (ref : node) : res node := each (pub_id_of "doi") (change_annotation find_doi) ref.
(** L166-170 *)
Definition full_url (text : str) : str :=
  let url := filter (fun c => negb (sp c)) text in
  if contains (u "://") url then url else u "https://" ++ url.
(** L173-190 *)
Definition new_ext_link (text : str) (tail : ostr) : node :=
  El None (u "ext-link") [(u "ext-link-type", u "uri"); (HREF, full_url text)] (Some text) [] (if truthy tail then tail else None).
(** L621-639: the text [None] is an error, of the text before (L244) and of the DOI *)
Definition doi_to_link : change := fun prev e =>
  match prev with
  | None => Err RuntimeError
  | Some before =>
      match find_doi_url_prefix before with
      | None => Ok (prev, [e], false)
      | Some (i, _) =>
          match e with
          | El _ _ _ (Some doi) _ t => Ok (Some (firstn i before), [new_ext_link (skipn i before ++ doi) t], false)
          | _ => Err TypeError
          end
      end
  end.
Definition replace_doi (ref : node) : res node := each (pub_id_of "doi") doi_to_link ref.

(** *** Links *)
(** ['w'.join(hrefs)] *)
Fixpoint join_w (l : list str) : str :=
  match l with [] => [] | [s] => s | s :: l' => s ++ 119%N :: join_w l' end.
(** L539-556 *)
Definition split_link : change := fun prev e =>
  match e with
  | El m nm a (Some ((_ :: _) as text)) kids t =>
      let hrefs := split_url text in
      match dict_get HREF a with
      | Some ((_ :: _) as href) =>
          if negb (streq href text) && negb (streq href (join_w hrefs)) then Ok (prev, [e], false)
          else
            match hrefs with
            | h :: ((_ :: _) as others) =>
                Ok (prev, El m nm (dict_set HREF h a) (Some h) kids t :: map (fun o => new_ext_link o None) others, false)
            | _ => Ok (prev, [e], false)
            end
      | _ => Ok (prev, [e], false)
      end
  | _ => Ok (prev, [e], false)
  end.
(** L561-569 *)
Definition cut_href : change := fun prev e =>
  match e with
  | El m nm a x kids t =>
      match dict_get HREF a with
      | Some ((_ :: _) as href) => let (i, j) := find_ext_link href in Ok (prev, [El m nm (dict_set HREF (slice href i j) a) x kids t], false)
      | _ => Ok (prev, [e], false)
      end
  | Mi _ => Ok (prev, [e], false)
  end.
(** L539-569 *)
Definition fix_ext_link (ref : node) : res node :=
  do ref <- each ext_link split_link ref ;;
  do ref <- each ext_link (change_annotation (fun t => Ok (Some (find_ext_link t)))) ref ;;
  each ext_link cut_href ref.

(** *** The rest *)
(** L642-660 *)
Definition fix_pii (ref : node) : res node := each (pub_id_of "pii") (change_annotation (finding find_pii_valid)) ref.
Definition fix_pmid (ref : node) : res node := each (pub_id_of "pmid") (change_annotation (finding find_pmid_fix)) ref.
Definition fix_pmcid (ref : node) : res node := each (pub_id_of "pmcid") (change_annotation (finding find_pmcid)) ref.
(** L663-724 *)
Definition add_if_not_present (present : node -> bool) (find : finder) (type : string) (parse_comment : bool) (ref : node) : res node :=
  if any present ref then Ok ref else add_annotation find (new_pub_id type) parse_comment ref.
Definition add_doi := add_if_not_present (pub_id_of "doi") find_doi "doi" false.
Definition add_pii_valid := add_if_not_present (pub_id_of "pii") (finding find_pii_valid) "pii" false.
Definition add_pii_other := add_if_not_present (pub_id_of "pii") (finding find_pii_other) "other" false.
Definition add_pmid := add_if_not_present (pub_id_of "pmid") (finding find_pmid) "pmid" true.
Definition add_pmcid := add_if_not_present (pub_id_of "pmcid") (finding find_pmcid) "pmcid" true.
Definition add_wos := add_annotation (finding find_wos) (new_pub_id "other") true.

(** L737-752 *)
Definition steps : list (node -> res node) :=
  [convert_types; fix_article_title; fix_doi; replace_doi; fix_ext_link; fix_pii; fix_pmid; fix_pmcid;
   add_pmid; add_pmcid; add_pii_valid; add_pii_other; add_wos; add_doi].
Definition fix_reference (ref : node) : res node := foldM (fun e f => f e) ref steps.

(** L755-758: the elements ref in ref-list in back below the root; such an element within
    another one is not looked at.  [in_back]: the parent is back; [in_refs]: it is ref-list in back. *)
Fixpoint fix_element (in_back in_refs : bool) (e : node) : res node :=
  match e with
  | Mi t => Ok (Mi t)
  | El m nm a x kids t =>
      if in_refs && streq nm (u "ref") then fix_reference e
      else
        do kids' <- (fix go (l : list node) : res (list node) :=
                       match l with
                       | [] => Ok []
                       | c :: l' => do c' <- fix_element (streq nm (u "back")) (in_back && streq nm (u "ref-list")) c ;; do l'' <- go l' ;; Ok (c' :: l'')
                       end) kids ;;
        Ok (El m nm a x kids' t)
  end.
Definition fix_jats_xml_node (root : node) : res node :=
  match root with
  | Mi t => Ok (Mi t)
  | El m nm a x kids t =>
      do kids' <- (fix go (l : list node) : res (list node) :=
                     match l with [] => Ok [] | c :: l' => do c' <- fix_element false false c ;; do l'' <- go l' ;; Ok (c' :: l'') end) kids ;;
      Ok (El m nm a x kids' t)
  end.
End Steps.

(* ---------------------------------------------------------------- *)
(** ** Meta data (L761-822) *)
(** [xpath('.//back/ref-list/ref')], again without such elements in each other *)
Fixpoint refs_below (in_back in_refs : bool) (e : node) : list node :=
  match e with
  | Mi _ => []
  | El m nm a x kids t =>
      if in_refs && streq nm (u "ref") then [e]
      else flat_map (refs_below (streq nm (u "back")) (in_back && streq nm (u "ref-list"))) kids
  end.
Definition refs (root : node) : list node :=
  match root with Mi _ => [] | El _ _ _ _ kids _ => flat_map (refs_below false false) kids end.
Section Meta.
(** [etree.tostring] *)
Variable tostring : node -> str.
(** L761-770 *)
Definition changed_references (root original : node) : res (list node) :=
  if length (refs root) =? length (refs original)
  then Ok (map snd (filter (fun p => negb (streq (tostring (fst p)) (tostring (snd p)))) (combine (refs root) (refs original))))
  else Err AssertionError.
Fixpoint join_comma (l : list str) : str :=
  match l with [] => [] | [s] => s | s :: l' => s ++ 44%N :: join_comma l' end.
Definition ref_id (e : node) : str := otext (attr (u "id") e).
(** decimal digits, time and flag as given *)
Variable decimal : nat -> str.
(** L788-816: the names and values *)
Definition meta_data (note timestamp malformed : str) (root original : node) : res (list (str * str)) :=
  do changed <- changed_references root original ;;
  Ok [(u "fix-jats-note", note); (u "fix-jats-run-timestamp", timestamp); (u "fix-jats-malformatted-xml", malformed);
      (u "fix-jats-changed-reference-count", decimal (length changed)); (u "fix-jats-changed-reference-ids", join_comma (map ref_id changed))].
(** L773-785 *)
Definition meta_element (kv : str * str) : node :=
  El None (u "custom-meta") [] None
    [El None (u "meta-name") [] (Some (fst kv)) [] None; El None (u "meta-value") [] (Some (snd kv)) [] None] (Some [NEWLINE]).
Fixpoint append_to_group (new : list node) (l : list node) : option (list node) :=
  match l with
  | [] => None
  | c :: l' =>
      if named "custom-meta-group" c
      then Some (match c with El m nm a x kids t => El m nm a x (kids ++ new) t | Mi t => Mi t end :: l')
      else option_map (cons c) (append_to_group new l')
  end.
Definition add_meta (data : list (str * str)) (root : node) : node :=
  match data, root with
  | _ :: _, El m nm a x kids t =>
      let new := map meta_element data in
      match append_to_group new kids with
      | Some kids' => El m nm a x kids' t
      | None => El m nm a x (El None (u "custom-meta-group") [] (Some [NEWLINE]) new (Some [NEWLINE]) :: kids) t
      end
  | _, _ => root
  end.
End Meta.
