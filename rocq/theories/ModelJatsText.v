(** Model of the text functions of fix_jats_xml.py: L241-402 (finding DOIs and titles) and
    L526-536 (URLs).
    The regular expressions DOI_PATTERN (L80), ARTICLE_TITLE_PATTERN (L93) and the URL one
    are written as functions, which is possible as they match in one way only.  Left open are the
    matching of the stop words (case insensitive), the removal of punctuation and the
    repeated DOI in a link (L365-370); see ModelPatterns.v for them and for the proof that the
    functions are what the regular expressions match (C102).
    [sp], [wd], [dg]: white space, word characters and digits of Python's [re]. *)
From Verif Require Import Base ModelDownload.
Open Scope nat_scope.

Section Text.
Variables sp wd dg : N -> bool.
(** [(token)\b] of one of DOI_TRUNCATE_AT_TOKENS at the start of the text (L96-100) *)
Variable token_at : str -> bool.
(** L255-260: [remove_punct], [remove_punct_or_whitespace] *)
Variables nopunct nopunct_space : str -> str.

Definition rstrip_by (f : N -> bool) (s : str) : str := rev (drop_while f (rev s)).
Definition rstrip (s : str) : str := rstrip_by sp s.
Definition rstrip_char (c : N) (s : str) : str := rstrip_by (N.eqb c) s.
Definition ends_with (suf s : str) : bool := starts_with (rev suf) (rev s).
Fixpoint contains (needle hay : str) : bool :=
  starts_with needle hay || match hay with [] => false | _ :: hay' => contains needle hay' end.
Fixpoint count_char (c : N) (s : str) : nat :=
  match s with [] => 0 | x :: s' => (if N.eqb x c then 1 else 0) + count_char c s' end.
Fixpoint split_first (c : N) (s : str) : option (str * str) :=
  match s with
  | [] => None
  | x :: s' => if N.eqb x c then Some ([], s') else match split_first c s' with Some (a, b) => Some (x :: a, b) | None => None end
  end.

(** *** DOI_PATTERN: [\b(10\.\d{4,}(?:\.\d{1,})*/.+)] *)
Definition NEWLINE : N := 10%N.
(** [\d{4,}(?:\.\d{1,})*/]: the number of characters; [need]: digits that are needed,
    [have]: digits so far in this part *)
Fixpoint doi_number (need have : nat) (s : str) : option nat :=
  match s with
  | [] => None
  | x :: s' =>
      if dg x then option_map S (doi_number need (S have) s')
      else if need <=? have then
        if N.eqb x 46 then option_map S (doi_number 1 0 s')
        else if N.eqb x 47 then Some 1 else None
      else None
  end.
(** [.+]: up to the end of the line *)
Fixpoint line_length (s : str) : nat :=
  match s with [] => 0 | x :: s' => if N.eqb x NEWLINE then 0 else S (line_length s') end.
(** the whole at the start of the text: its length *)
Definition doi_at (s : str) : option nat :=
  if starts_with (u "10.") s then
    match doi_number 4 0 (skipn 3 s) with
    | Some n => match line_length (skipn (3 + n) s) with 0 => None | m => Some (3 + n + m) end
    | None => None
    end
  else None.
(** [\b] *)
Definition boundary (prev : option N) (s : str) : bool :=
  xorb (match prev with Some x => wd x | None => false end) (match s with x :: _ => wd x | [] => false end).
Fixpoint doi_search (prev : option N) (pos : nat) (s : str) : option (nat * nat) :=
  match (if boundary prev s then doi_at s else None) with
  | Some n => Some (pos, pos + n)
  | None => match s with [] => None | x :: s' => doi_search (Some x) (S pos) s' end
  end.
Definition find_doi_pattern (text : str) : option (nat * nat) := doi_search None 0 text.

(** *** Cutting off what does not belong to the DOI *)
(** L263-286 *)
Definition strip_pii_from_doi (doi : str) : str :=
  if negb (ends_with (u "[pii]") doi) then doi else
  let doi := rstrip (firstn (length doi - 5) doi) in
  match split_last 32 doi with
  | None => doi
  | Some (doi_start, rest) =>
      let candidate := tl rest in
      if length candidate <? 3 then doi
      else if contains candidate doi_start then rstrip doi_start
      else let candidate := nopunct candidate in
           if length candidate <? 3 then doi
           else if contains candidate (nopunct doi_start) then rstrip doi_start
           else doi
  end.
(** L289-303 *)
Definition remove_duplicate_doi (doi : str) : res str :=
  match split_first 47 doi with
  | None => Err ValueError
  | Some (prefix, path) =>
      match find_doi_pattern path with
      | None => Ok doi
      | Some (other_start, _) =>
          let other := skipn other_start path in
          let doi_start := prefix ++ 47%N :: firstn other_start path in
          if contains other doi_start then Ok (rstrip doi_start)
          else if contains (nopunct_space other) (nopunct_space doi_start) then Ok (rstrip doi_start)
          else Ok doi
      end
  end.
(** L306-314: the position of the first white space or [(] that is followed by a token *)
Fixpoint stop_position (s : str) : option nat :=
  match s with
  | [] => None
  | x :: s' => if (sp x || N.eqb x 40) && token_at s' then Some 0 else option_map S (stop_position s')
  end.
Definition truncate_doi (doi : str) : str :=
  match stop_position doi with
  | None => doi
  | Some n => rstrip_char 46 (rstrip (firstn n doi))
  end.
(** L317-334 *)
Definition find_doi_start_end (text : str) : res (option (nat * nat)) :=
  match find_doi_pattern text with
  | None => Ok None
  | Some (start, stop) =>
      let doi := rstrip (rstrip_char 46 (rstrip (firstn (stop - start) (skipn start text)))) in
      let doi := truncate_doi doi in
      let doi := if ends_with (u "[doi]") doi then rstrip (firstn (length doi - 5) doi) else doi in
      let doi := strip_pii_from_doi doi in
      do doi <- remove_duplicate_doi doi ;;
      let doi := rstrip_char 59 doi in
      let doi := if count_char 91 doi <? count_char 93 doi then rstrip (rstrip_char 93 doi) else doi in
      if streq (firstn (length doi) (skipn start text)) doi then Ok (Some (start, start + length doi)) else Err AssertionError
  end.

(** *** Titles *)
Definition DQUOTE : N := 34%N.
Definition LSQUO : N := 8216%N.
Definition RSQUO : N := 8217%N.
Definition LDQUO : N := 8220%N.
Definition RDQUO : N := 8221%N.
(** L380-390; the text between [start] and [stop] *)
Definition has_quotes (text : str) (start stop : nat) : bool :=
  (start + 2 <? stop) &&
  match nth_error text start, nth_error text (stop - 1) with
  | Some a, Some b =>
      (N.eqb a DQUOTE && N.eqb b DQUOTE) || (N.eqb a LSQUO && N.eqb b RSQUO) || (N.eqb a LDQUO && N.eqb b RDQUO)
  | _, _ => false
  end.
(** [$]: at the end, or before a last newline *)
Definition at_end (s : str) : bool := match s with [] => true | [x] => N.eqb x NEWLINE | _ => false end.
(** [\;\s*PMC\d+] or [\s*,\s*] or nothing, and then the end *)
Definition title_rest (s : str) : bool :=
  at_end s ||
  match s with
  | x :: s' =>
      N.eqb x 59 &&
      (let r := drop_while sp s' in
       starts_with (u "PMC") r &&
       match skipn 3 r with y :: r' => dg y && at_end (drop_while dg r') | [] => false end)
  | [] => false
  end ||
  match drop_while sp s with x :: r => N.eqb x 44 && forallb sp r | [] => false end.
(** ARTICLE_TITLE_PATTERN: the end of the first group *)
Fixpoint title_end (s : str) : option nat :=
  if title_rest s then Some 0
  else match s with
       | [] => None
       | x :: s' => if N.eqb x NEWLINE then None else option_map S (title_end s')
       end.
(** L393-401 *)
Definition find_article_title_start_end (text : str) : nat * nat :=
  let stop := match title_end text with Some n => n | None => length text end in
  if has_quotes text 0 stop then (1, stop - 1) else (0, stop).
End Text.

(** L526-536: [regex.finditer('https?://')] *)
Definition url_at (s : str) : bool := starts_with (u "http://") s || starts_with (u "https://") s.
(** [cur]: the characters since the last start *)
Fixpoint split_urls (cur : str) (s : str) : list str :=
  match s with
  | [] => match cur with [] => [] | _ => [cur] end
  | x :: s' =>
      if url_at s then match cur with [] => split_urls [x] s' | _ => cur :: split_urls [x] s' end
      else split_urls (cur ++ [x]) s'
  end.
Definition split_url (url : str) : list str := split_urls [] url.
