(** The prefixes that are looked for before a match or a field, with the regular expressions as
    they are written: annotation/reference_annotator.py (R below) L38, L156-163,
    auto_annotate_reference.py (C) L104-112, annotation/simple_matching_annotator.py (S) L466-489,
    L765-774, config/xml-mapping.conf (F) L7, L58. *)
From Verif Require Import Base ModelRegex.
Open Scope nat_scope.

(** [m = re.search(pattern, text)], [m.start()].  A pattern that does not compile is an error of
    Python; the patterns below compile (C106). *)
Definition re_start (sp wd dg : N -> bool) (fold : N -> N) (pat s : str) : option Z :=
  match re_compile pat with
  | Parsed p => option_map (fun m => Z.of_nat (fo_start m)) (re_search sp wd dg fold p s)
  | _ => None
  end.
(** S L771-772: [re.compile(regex_str)] does not raise *)
Definition re_compiles (pat : str) : bool := match re_compile pat with Parsed _ => true | _ => false end.

(** R L38 *)
Definition DEFAULT_IDNO_PREFIX_REGEX : str := u "\b[a-zA-Z]{2,}(\s?:)?$".
(** C L104-112 *)
Definition IDNO_PREFIX_REGEX_MAP : list (str * str) :=
  [(u "reference-issn", DEFAULT_IDNO_PREFIX_REGEX);
   (u "reference-isbn", DEFAULT_IDNO_PREFIX_REGEX);
   (u "reference-doi", u "(?i)\bDOI(\s?:)?$");
   (u "reference-pii", u "(?i)\bPII(\s?:)?$");
   (u "reference-pmid", DEFAULT_IDNO_PREFIX_REGEX);
   (u "reference-pmcid", DEFAULT_IDNO_PREFIX_REGEX);
   (u "reference-arxiv", DEFAULT_IDNO_PREFIX_REGEX)].
(** F L7 *)
Definition ABSTRACT_PREFIX_REGEX : str := u "(abstract|summary)\s*$".
(** F L58 *)
Definition AFF_PREFIX_REGEX : str := u "({author_aff-label})\s*[\.-]*\s*$".
