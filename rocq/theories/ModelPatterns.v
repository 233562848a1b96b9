(** The regular expressions of fix_jats_xml.py (L80-100, L366) as they are written there, and the
    functions that use them (L241-377), with the model of [re] in ModelRegex.v; the changes to
    references with them in place of what ModelJats.v leaves open. *)
From Verif Require Import Base ModelDownload ModelJoined ModelJatsText ModelJats ModelRegex.
Open Scope nat_scope.

(** L80-93 *)
Definition DOI_PATTERN : str := u "\b(10\.\d{4,}(?:\.\d{1,})*/.+)".
Definition PII_VALID_PATTERN : str := u "\b([S,B]\W*(?:[0-9xX]\W*){15,}[0-9xX])".
Definition PII_OTHER_PATTERN : str := u "\b(?:doi\:)?(\S{5,})\s*\[pii\]".
Definition PMID_FIX_PATTERN : str := u "(?:PMID\s*\:\s*)?\b(\d{1,10})\b".
Definition PMID_PATTERN : str := u "(?:PMID\s*\:\s*)(\d{1,10})\b".
Definition PMCID_PATTERN : str := u "(PMC\d{1,})".
Definition WOS_PATTERN : str := u "(?:WOS\s*\:\s*)(\d{15,15})\b".
Definition DOI_URL_PREFIX_PATTERN : str := u "((?:https?\s*\:\s*/\s*/\s*)?(?:[a-z]+\s*\.\s*)?doi\s*.\s*org\s*/\s*)".
Definition ARTICLE_TITLE_PATTERN : str := u "^(.*?)(\;\s*PMC\d+|\s*,\s*)?$".
(** L96-100; the tokens are a set: their order can be any *)
Definition DOI_TRUNCATE_AT_TOKENS : list str := [u "PubMed"; u "PMID"; u "PMCID"; u "Error"; u "Epub"; u "Accessed"].
Definition truncate_pattern (tokens : list str) : str :=
  u "(?i)(" ++ join_str (u "|") (map (fun t => u "(?:\s|\()(" ++ re_escape t ++ u ")\b") tokens) ++ u ")".
(** L366 *)
Definition REPEATED_DOI_PATTERN : str := u "(.*)(\[" ++ DOI_PATTERN ++ u "\])".

(** [re.compile]; all patterns of the code compile (C102) *)
Definition compiled (s : str) : pattern := match re_compile s with Parsed p => p | _ => mkPattern false 0 REmpty end.
Definition ignore_case (p : pattern) : pattern := mkPattern true (pt_groups p) (pt_re p).

Section Finders.
Variables sp wd dg : N -> bool.
Variable fold : N -> N.
(** L241-252: [find_re_pattern_start_end]; a group that is not in the match would be at -1: for
    the patterns of the code the first group always is in it *)
Definition find_re (p : pattern) (text : str) : option (nat * nat) :=
  match re_search sp wd dg fold p text with Some m => group 1 m | None => None end.
(** L306-314: the start of the match of the stop words *)
Definition stop_start (tokens : list str) (doi : str) : option nat := option_map fst (find_re (compiled (truncate_pattern tokens)) doi).
(** the same without [re]: one of the tokens at the start of the text, up to a boundary (C102) *)
Fixpoint token_rest (t : str) (prev : option N) (s : str) : bool :=
  match t, s with
  | [], _ => xorb (is_word wd prev) (is_word wd (hd_error s))
  | a :: t', c :: s' => N.eqb (fold c) (fold a) && token_rest t' (Some c) s'
  | _ :: _, [] => false
  end.
Definition any_token_at (tokens : list str) (s : str) : bool := existsb (fun t => token_rest t None s) tokens.
(** L337-362 *)
Definition find_doi_url_prefix := find_re (compiled DOI_URL_PREFIX_PATTERN).
Definition find_pii_valid := find_re (compiled PII_VALID_PATTERN).
Definition find_pii_other := find_re (compiled PII_OTHER_PATTERN).
Definition find_pmid := find_re (compiled PMID_PATTERN).
Definition find_pmid_fix := find_re (compiled PMID_FIX_PATTERN).
Definition find_pmcid := find_re (ignore_case (compiled PMCID_PATTERN)).
Definition find_wos := find_re (ignore_case (compiled WOS_PATTERN)).
(** L365-370: [m.start(2)] *)
Definition repeated_doi (text : str) : option nat :=
  match re_match sp wd dg fold (compiled REPEATED_DOI_PATTERN) text with
  | Some m => option_map fst (group 2 m)
  | None => None
  end.
End Finders.

(** The changes to references and documents with these patterns *)
Section References.
Variables sp wd dg : N -> bool.
Variable fold : N -> N.
(** [\p{Punct}] and [str.lower] *)
Variable punct : N -> bool.
Variable lower : str -> str.
(** L255-260 *)
Definition remove_punct (s : str) : str := filter (fun c => negb (punct c)) s.
Definition remove_punct_or_whitespace (s : str) : str := filter (fun c => negb (punct c || sp c)) s.
(** L737-758 *)
Definition re_fix_reference : node -> res node :=
  fix_reference sp wd dg (any_token_at wd fold DOI_TRUNCATE_AT_TOKENS) remove_punct remove_punct_or_whitespace
    (find_pii_valid sp wd dg fold) (find_pii_other sp wd dg fold) (find_pmid sp wd dg fold) (find_pmid_fix sp wd dg fold) (find_pmcid sp wd dg fold)
    (find_wos sp wd dg fold) (find_doi_url_prefix sp wd dg fold) (repeated_doi sp wd dg fold) lower.
Definition re_fix_document : node -> res node :=
  fix_jats_xml_node sp wd dg (any_token_at wd fold DOI_TRUNCATE_AT_TOKENS) remove_punct remove_punct_or_whitespace
    (find_pii_valid sp wd dg fold) (find_pii_other sp wd dg fold) (find_pmid sp wd dg fold) (find_pmid_fix sp wd dg fold) (find_pmcid sp wd dg fold)
    (find_wos sp wd dg fold) (find_doi_url_prefix sp wd dg fold) (repeated_doi sp wd dg fold) lower.
End References.
