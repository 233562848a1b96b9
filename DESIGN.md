# Formal model of sciencebeam-trainer-grobid-tools (Rocq / Coq 8.16.1)

## 1. Trusted base

* Coq's kernel (8.16.1, standard `coqc`).
* What `Print Assumptions` reports.  Every property theorem is followed by a
  `Print Assumptions` command in its `Prop*.v` file.  The target is
  "Closed under the global context" for every theorem; any standard library
  axiom would be listed in section 5.
* The model files (`theories/Model*.v`) being a faithful transcription of the
  Python code.  Every definition cites file and lines in `/repo` and states its
  simplifications.  The correspondence itself is not machine checked (the code
  cannot be run in this environment).
* No axioms, no functors / module types, no kernel checks switched off.

## 2. General modelling decisions

* Text is `list N` (unicode code points).  Python predicates on characters
  that depend on the unicode data base (`isupper`, `islower`, `isspace`,
  `\w`, ...) are parameters (ordinary arguments or section variables, discharged at the end of
  the section); theorems hold for every such classification.
* Python exceptions are values (`inl err` / `Err`).  Loops are structural
  recursion or folds; `while` loops use fuel, and a theorem shows that the
  fuel is never exhausted (termination), or a counter example that it can be.
* lxml elements are trees `Elem name attrib text children tail`; `None` and
  `''` text are identified (the code treats both the same, except where noted).
* Fuzzy matching libraries (`sciencebeam_alignment`; `difflib` outside C107), regular
  expression engines, the Levenshtein ratio, XPath and file systems are
  oracles: theorems quantify over all their results, subject to an explicitly
  stated contract where one is needed.
* Mutable tokens are addressed by their position (line, index); the document
  is a list of lines of token records, annotators are functions on it.
* Where the faithful model violates the property as a user would state it, the
  positive part that does hold is proved, and a `..._refuted` theorem exhibits
  a concrete counter example in the model.

## 3. What is modelled, per property

Model files are `theories/Model*.v`, theorems are in the `Prop*.v` file of the
same name unless noted.  The exact theorem names and the exceptions are in
`MANIFEST.json`.  Where a property fails in the faithful model, a `..._refuted`
theorem with a concrete input stands next to the part that does hold.

| id | model | statement and proof |
|----|-------|---------------------|
| C01 | ModelTags | splitting and joining of prefixes; case analysis on the two prefixes, exceptions refuted |
| C02 | ModelTokenize | tokens concatenate to the text; where a text is split is characterised; induction with the splitter state |
| C03, C56, C57, C71 | ModelTei (reading) | structural induction over the tree with the token writer as accumulator; the specification is computed on the tree (`SpecTeiRead`); C71 is an invariant of the writer |
| C04-C06, C55 | ModelTei (writing) | zipper invariant: located text of the tree under construction = what the tokens prescribe (`SpecTeiWrite`); creation numbers give the same-element relation |
| C07 | ModelTei (both) | text unconditional; tags of reloaded words from the located text when used paths do not lie below mapped ones (`PropTeiRoundtrip`); begin/inside prefixes and untagged text with a mapping entry exactly (`PropTeiPrefix`); sub tags exactly, from the pieces of the saved tree (`ProofTeiSub`, `PropTeiSub`) |
| C08-C10 | ModelTeiDoc | exact results for several containers and for removal of untagged text; remembered tags over any sequence of assignments |
| C11 | ModelAnnotators | frame lemma for the tag writing primitives, lifted to every sequence of annotators |
| C12, C52 | ModelSimpleMatch | loop invariant with an arbitrary search oracle; exact effect of the sub-tag-only mode |
| C72, C73 | ModelSimpleMatch (exact) | the token positions in a range are strictly in reading order, so the fold over them is a marking of first and others; runs are decomposed into rounds by induction over the fuel, the last round leaves the document unchanged |
| C13, C14 | ModelJoined | overlap of half open intervals; unique maximal run decomposition |
| C15 | ModelClusters | fuel bounded by the number of clusters, permutation, fix point, extent of merged ranges |
| C16 | ModelExtend | exact result per maximal group |
| C17, C18 | ModelLineNumbers | selected numbers strictly increase; which pages are numbered |
| C19 | ModelExpand | exact result per token from the nearest tagged neighbour |
| C20, C53 | ModelPostAnnot | pointwise: last tag before the position; replacement of tags |
| C21-C23, C63, C64 | ModelSegmentation | one specification per pass, then an invariant through all passes |
| C24, C25, C65 | ModelReference | pointwise results of the four passes, unique partition into references; documents in `PropReferenceDoc` |
| C26-C29 | ModelFuzzyMatch | filter equation, inverted ranges, exact ratios as rationals, splitting |
| C30, C31 | ModelWordMatch | offsets by induction; difflib as oracle with its documented contract |
| C32-C34 | ModelFuzzySearch | positive stride, decreasing measure, offsets relative to the haystack |
| C35, C36, C58-C61 | ModelTarget | independent run-normalising specification; stable sort; exact kept characters |
| C37-C39, C62 | ModelMapping | filters, counts of statements, parsing as inverse of printing |
| C40 | ModelChecks | segmentation of the tagged words into entities, decision |
| C41-C45 | ModelPipeline | one run as a function of its outcome; small step semantics of workers with shared exit stack, temporary files, and kills; invariants over all schedules and crash points |
| C46, C67 | ModelDownload | lists of pairs; all interleavings of the copy operations; names |
| C47, C48, C68-C70 | ModelJats | tree edits with arbitrary finders; text equations; set of possible exceptions |
| C49 | ModelJatsText | ranges inside the text |
| C50, C51 | ModelFixXml | stack automaton over all event lists; output is the rendering of a forest |
| C54, C66 | ModelMatch | token ranges of matches over one or two lines; block finder as oracle |
| C74, C75 | ModelMatch (exact) | invariant of the finder: choices are ordered by position; the run is an inductive relation over annotations, waiting matches and positions seen; marking by an invariant over the words processed |
| C76 | ModelJatsText, ModelJats | induction on texts against a specification by splits of the text; sizes of trees for the number of new elements; commas and spaces behind the last child of a title: the exact result |
| C77, C78 | ModelCommands | induction on expressions; names and paths of the mappings stay different when fields are added; the fixed mappings are computed |
| C79 | ModelAnnotators | invariant: a set of values per level, kept by each annotator; the specification lists the names each annotator may write |
| C80 | ModelCommands, ModelTei | values of loaded tags are paths of elements (invariant of the reader), written ones are names (C79); then C04 |
| C81, C82 | ModelCommands | lists of annotators by cases; layout (C11); relation between tokens before and after preparation (C10) and sub tag annotation (C52) |
| C83 | ModelSegChecks, ModelFuzzySearch | induction over the values; totality of the search (C32, C34); order dependence by example |
| C84, C85 | ModelSource | decomposition into pieces (as for `str.replace`); an occurrence in the result spans a removed tag |
| C86 | ModelTagConfigs | last option of a key as a decomposition of the list of all options |
| C87 | ModelCommands, ModelFuzzySearch | results as functions of the loop bound that settle, composed over the annotators; totality of each (C32, C33, C15, C54, C18, C65) |
| C88 | ModelTargets | nodes are paths of child indices, order of paths is document order; inversion of the reader per field and element; refinement to ModelTarget (C36) |
| C89 | ModelTargets | sources by an inductive relation; text of a tree as a permutation of the texts of its elements outside of their children |
| C90 | ModelRuns (ModelTargets, ModelTagConfigs, ModelCommands) | composition: names of targets (C88) through the filtered mapping, names written (C79), totality (C88, C86, C87) and saving (C80) |
| C91 | ModelFiles (ModelRuns, ModelChecks, ModelSegChecks, ModelSource, ModelFixXml, ModelPipeline) | result of one source characterised (annotated, accepted, saved), then composition with C43, C45 for all interleavings and with C90 for totality |
| C92 | ModelFixJats (ModelJats, ModelTarget, ModelPipeline) | lines, repair, meta data and fixed document characterised by independent relations (iff), then composition with C43, C45, C70 |
| C93 | ModelFixJats | invariant over all steps without assumptions on the paths; refuted with the outputs below the sources |
| C94 | ModelFixJats | case analysis (iff); refuted for a list in the current directory; which directory it is (C94_base) |
| C95 | ModelArgs | the words read by an inductive relation (iff with the model of argparse), well-formedness of the declarations of every command by computation; refuted for a list that starts with a minus sign in the next word |
| C96 | ModelArgs (ModelMapping) | occurrences are declared (from C95), last value by reverse induction, lists by C38 |
| C97 | ModelIni | an inductive grammar of configuration texts, shown equivalent to the model of `configparser` line by line |
| C98 | ModelIni (ModelMapping) | references replaced by an inductive relation with a level, equivalent to the model; refuted for upper case segment names |
| C99 | RepoConfig (the two files of the repository as texts), ModelIni, ModelCommands, ModelRuns | the shipped texts are evaluated for ASCII and the results carried to all character classes that agree with ASCII; checks over all fields by computation; saving by C90 for every document; refuted for `listBibl` |
| C100 | ModelMain (ModelArgs, ModelIni, ModelPipeline, ModelFiles) | the start by an inductive relation (iff), results by C91 with distinct names of the sources, ends by C43, determined by C43/C45, saved with the shipped configuration by C91_total, C96 and C99; the patterns of the commands by induction over the globs |
| C101 | ModelRegex (reading of patterns, backtracking matcher, search, match, finditer, sub) | spec: inductive relation `reads` without backtracking; matcher = first of the ordered ways (induction on expressions), ways = readings; then induction on the text |
| C102 | ModelPatterns (the patterns of `fix_jats_xml.py` as written), ModelJatsText | DOI by computing the ways of the compiled pattern, title and stop words by readings; the stop word pattern by a lemma on reading `re.escape` of any text |
| C103 | ModelPatterns (searches with the patterns as written) | readings of the compiled patterns against descriptions; for greedy ends (PMCID, PII, text before [pii], bracketed DOI) the preferred reading is computed; the nested repetition of the PII by induction over separators |
| C104 | ModelPatterns `re_fix_reference`, `re_fix_document` (ModelJats with the finders as written) | an invariant of the tree (no pub-id holds elements; texts of handled types are of their form) kept by every step and established by the step of its type; the cases of `TestFixReference` by computation; three false claims refuted by concrete references |
| C105 | ModelShort: the functions with the regular expressions as written (compiled by ModelRegex's parser) | each pattern is compiled by computation (those with a prefix or a name in them: for every prefix, through the parser), its readings are characterised, `finditer` is shown to be one pass over the text, and the result equals the function written out by hand in the other models; the optional `@` and the greedy parts of tag expressions and file names follow from the order of the attempts |
| C106 | ModelPrefixes: the prefix patterns as written in the code and in the shipped configuration, `re.search(...).start()` | the readings of the compiled patterns are characterised (the one with a label through the parser for every label) and the leftmost of them is taken; for names and headings there is at most one start; combined with C24 (tokens before a field) and `with_prefix` of ModelSimpleMatch; false claims: `C106_any_word_refuted`, `C106_case_refuted` (the text is in lower case, the label is not), `C106_word_refuted` |
| C107 | ModelDifflib: `find_longest_match` with its tables, the loops at both ends, the queue, sorting and merging of `get_matching_blocks` | the table of a row is the length of the longest run that ends there (invariant over rows and columns), hence the first longest match; the queue visits a tree of ranges (relation `covers`, fuel from a measure), sorting gives its order as blocks of disjoint ranges are ordered; merging keeps the blocks; the contract `words_ok` assumed elsewhere follows; splitting into words is unique, so whole words of the text are runs of its words, and the ratio of a full match is 1 |
| C108 | ModelSimpleMatch with `with_searches` of ModelCommands and ModelDifflib | replacing line feeds by spaces keeps whole-word places (both are separators), then C107 for the search; the tokens of a range by C13; pending tokens are untagged and distinct (invariant of the runs of C14, positions of words are distinct), so that tagging them one after the other has the effect stated per token; a character outside of all tokens is in a gap, so a place has a token; the loop over sub matches by induction over the sorted places of C107 |
| C109 | ModelTools `fix_program` (ModelArgs, ModelFixJats, ModelPipeline) | the start by an inductive relation over the options as read (iff), results by C92, ends by C43 |
| C110 | ModelTools `download_program` (ModelArgs, ModelDownload, ModelPipeline) | the start as a relation (iff) with the plan of C46, results by C46 and C45, ends by C43; `C110_relative_refuted`: with a library that joins every relative path nothing is copied for a relative base path |
| C111 | ModelTools | false: without a base path the rows are used as they are (`C111_refuted`); `C111_partial` says when this is the same |
| C112 | ModelAttribs: tokens with a dictionary of attributes, names computed from scope and level | names end in the kind, the level ends in an underscore and a digit, a scope in a hyphen, so names can be taken apart from the end; then laws of dictionaries; simulation of the operations of ModelTei/ModelTeiDoc by induction over the operations; this removes the assumption that the four tags are separate fields |
| C113 | ModelAttribs `merge_with` | one lemma about threading the tokens of the other document through a list, used for tokens, lines and pages |
| C114 | ModelXPath (lexer, parser, axes, tests, predicates, `eval_xpath`) | the nodes of a step are those of the axis relation (closures of the child relation); induction over steps and expressions; sorted and without duplicates as a filter of all nodes; a matcher on the names and attributes along the way is equivalent to walking (induction over the steps, splitting the path at a node) |
| C115 | ModelXPath, `parse_xpaths`, `all_xpaths` on the mapping of C99 | each expression is parsed by computation, its steps are matched against the condition of the table by C114 and lemmas about the shapes of paths; lines of a field exclude each other |
| C116 | as C115 | from the conditions of C115: names of the last elements, parts of the document; the false parts by one document |
| C117 | ModelJson (`parse_json`, `read_concat`, `read_range`) | the grammar is an inductive relation between values and texts; completeness by its mutual induction, soundness by induction on the fuel; numbers and escapes apart; the readers by cases on values |
| C118 | ModelJson, ModelXPath, ModelPrefixes on the mapping of C99 | every option of the file is read by computation; discharges the assumptions of C99/C100 about XPath, JSON and regular expressions |
| C119 | ModelTargets, ModelXPath, ModelJson on the mapping of C99, `command_fields` | the options of each of the eight fields by computation; `./name` finds the children of that name (C114), excluding parents of found elements removes nothing among siblings; elements and order by C115 and C120 |
| C120 | ModelTargets `targets_of` | the sort keys of one field are distinct and increase in document order (C88_positions), so sorting and then filtering gives the only sorted permutation |
| C121 | ModelTargets, ModelXPath on the mapping of C99, `command_fields` | the options of the 22 fields by computation; the code's walk with ignored elements removed is shown to give the pieces outside them (structural induction on the document); elements and order by C115 and C120 |
| C122 | ModelTargets, ModelXPath, ModelJson on the mapping of C99, `command_fields` | as C119: the found children are the element's own, the concatenation and the range are computed from the parsed options; that `.ignore` plays no part follows since the ignored elements are only looked at without `.children` |
| C123 | ModelXPath `lex`, `parse_xpath` | a grammar as inductive relations on texts and words; the parser with fuel is shown sound by induction on the fuel and complete by mutual induction on derivations with the words that may follow; the fuel always suffices |
| C124 | ModelTargets, ModelXPath, ModelJson on the mapping of C99, `command_fields` | `contains_raw_text` is characterised by structural induction; without raw text the immediate texts of inner elements are blank, so only the innermost elements, the pair of pages and the left-over text (a parameter: `get_text_content` with exclusions is a library function) remain. With C119, C121 and C122 all 36 fields of the mapping are covered |
| C125 | ModelTargets `xml_targets`; ModelXPath on the mapping of C99, `command_fields` | insertion sort is stable: sorted with an order that looks at the fields only for equal keys; positions are document order (C88_positions); the priorities of the 36 fields by computation |
| C126 | ModelReport (search with a reporter, written again from the code) next to ModelMatch | each step equals the step without report followed by forgetting the row; rows by induction on the choices; the ratios in a row exist by C28_ratios for valid blocks, also of the split matches |
| C127 | ModelRead (local, remote and opened sources, temporary directories, two tries) on top of ModelFixJats | a `with` block is a function of the code inside; one lemma for code that reads its file and leaves the files alone, used for each nested block; `gives` says what a source holds and C127_gives that it is a function |
| C128 | ModelHtml (the parser on plain mark-up) in front of ModelFixXml | reading is inverted: `piece`, `text` and `events_of` describe plain mark-up without a parser, and C128_reads proves both directions (each piece uses up a character, so the fuel suffices); repair by C50; for the second repair the result is turned into pieces again after adjacent texts are joined; C128_names_refuted shows that camel-case names do not survive |
| C129 | ModelRegex: the parsers of patterns and templates | spec: mutually inductive grammar `Alt`/`Seq`/`Atom` with `Suffix`, `Bounds`, `Members` and `Escape`, without a parser; soundness by induction on the fuel, completeness by induction on derivations with a bound on the fuel in the length of the text, so that the fuel of `re_compile` suffices; uniqueness follows; numbering by induction on derivations; the same for templates |
| C130 | ModelRequired (lookup of required elements), with any evaluator; examples and order with that of ModelXPath | spec: parts of the expression before a slash, without fragments; fragments and such parts correspond (splitting and joining are inverse), lengths grow with the number of fragments, then induction on the number of fragments; both directions because the outcomes exclude each other; C130_value_error_refuted: the natural wish that a missing element always gives a ValueError is false |
| C131 | ModelMatch (complex matcher) with ModelSimpleMatch (normalise_str) and ModelFuzzyMatch (remove_junk) | spec: an inductive reading of lower case texts, junk by the character before, open words of the lines; C131_text by induction on the replacements, C131_choices by induction on lines and words; C131_alike relates two runs: everything that is not a document is equal, documents stay alike through every assignment of a tag |
| C132 | ModelCsv (reporter of match details with `csv.writer`) on the rows of ModelReport | spec: inductive grammar of separated values, decimal numbers by value; C132_read by induction on the rows, C132_unique: where a field, a line ends is determined, by induction on the grammar; C132_columns over the default columns |
| C133 | ModelSimpleMatch, ModelExtend, ModelTags | relation between two runs (words read alike, same main tags, sub tags free) kept by every step; sub annotations keep the main part of every word; C133_main, C133_outcome for any search; C133_sub_refuted by a word with another dash |
| C134 | ModelSimpleMatch (`split_and_join`, `matching_chunks`) | spec: inductive grammar of the words of a text and of words with spaces in between; C134_words by induction on the grammar with the current run generalised; the others follow |
| C135 | ModelSimpleMatch | simulation of the run with sub annotations by the one without, by the relation of C133; C135_sub by induction on the run |
| C136 | ModelSimpleMatch | the relation of C133 weakened on words with a tag; kept because only words without tag enter the text searched and every tag set is not empty |
| C137 | ModelCommands, ModelTei | the fixed tables are decided by computation for each command, carried over to any word predicate that is right on ASCII and to added fields (which never replace an entry); the writer then takes the sub path. Refuted for added fields |
| C138 | ModelCommands, ModelAnnotators | the general theorems C19, C37 and C108 applied to the annotators and settings the commands build; a run of the full text command is split into the run without expansions and the two passes |
| C139 | ModelExpand, ModelPostAnnot, ModelSimpleMatch, ModelTeiDoc | an invariant of the output (no untagged word right before a word whose tag is expanded) under which the pass does nothing; a relation between the states of the two runs for groups. Refuted for the extension to lines and for the removal of untagged words |
| C140 | ModelSimpleMatch, ModelJoined | case analysis of one step of the matcher with blocks specified apart from it, induction over the fields; the ranges of joined lines for where the search goes on |
| C141 | ModelJats (remove_quotes) | the exact result in each case, by splitting the text of the title; not true of titles without children (the right quote stays) and of double typographic quotes (C141_kept_refuted) |

No property is left out as not expressible.

## 4. What is not modelled, and simplifications

* Libraries: lxml's parser, serialiser and XPath (the subset of XPath used by the shipped mapping is
  modelled in C114: no numbers, positions, functions but `not`, prefixes, `..`, or longer paths
  in predicates; that lxml follows XPath 1.0 is an assumption; the texts of comments are left
  out of these trees); regular expression engines
  (only their results, see below); `sciencebeam_alignment` (only the
  block contract: in order, inside both texts, pairing equal characters); `difflib` on words is
  modelled in C107 (Python 3.7, without junk), where its contract `words_ok` is proved;
  Levenshtein ratios; the unicode data base; `HTMLParser` (its events are the
  input of C50/C51, validity of the input is an oracle; C128 models it, Python 3.7, on plain
  mark-up only, with `html.unescape` as an argument); Beam runners and cloud
  file systems; `sciencebeam_utils` path helpers (functions; C46 assumes that
  making a path absolute twice changes nothing); logging; for the CSV files of match details
  `csv.writer` is modelled in C132 (Python 3.7, default dialect), the choice of the delimiter and
  the texts of matches are arguments; the conversion of
  LayoutXML / SVG upstream.
* Regular expressions (ModelRegex): the model of Python's `re` (3.7) is an assumption.
  Not supported: references to groups, named groups, look-around, flags other than a first
  `(?i)`, octal and hexadecimal escapes, `\Z`; the grammar of C129 is what is supported.  An iteration beyond the required ones has to
  read something.  Case is ignored by comparing one folded character each.
* Search oracles: `re.search`, `re.escape`, `str.lower` and the fuzzy search of
  the simple matcher, the fuzzy blocks and filters of the complex matcher, the
  finders of titles, stop words and punctuation in `fix_jats_xml.py` are
  arguments.  Where a contract is needed (`lsm_ok`, `words_ok`, a range inside
  the text) it is a hypothesis of the theorem.
* Ratios are exact rationals (Python: floats); `int()` of digits is an arbitrary
  partial function in C17/C18.
* Tokens are values: aliasing of token objects after `remove_untagged` is not
  modelled.  Lazy generators are run to the end (the complex matcher's `tee` /
  `iter_flatten` evaluation order included).
* `splitlines` uses a class of single boundary characters.  `.` in the tag
  expression pattern excludes line feeds as in Python.
* Target annotations: the values found by XPath are inputs in C36.  C88 models the
  reader itself; there XPath (a function from a context node and an expression to
  a list of nodes or an error), the regular expression results, `re.compile`,
  the two JSON options, `int()`, `str.lower` and the text without excluded
  elements are arguments.  Elements are identified by their path in the tree.  C114-C118
  give XPath, JSON and `re.compile` by models: ModelJson keeps numbers as they are
  written, does not read `NaN`, `Infinity` and escaped surrogates, and refuses values
  of another form than used when they are read (the code: when they are used).
* Commands, segmentation checks, source fixes and tag configurations
  (ModelCommands, ModelSegChecks, ModelSource, ModelTagConfigs): `re.sub` (given by
  ModelRegex in C105),
  `int()`, `str.lower` and the iteration order of sets are arguments; the order
  of a set is any list with the same elements.
* Pipeline: the file system is a function from names to contents; creation of a
  temporary directory and entering it on the exit stack is one step; write errors
  and buffering appear only as half written files at a kill.
* Commands on files (ModelFiles): contents are lists of bytes; parsing of sources and
  targets, serialisation, decoding, `re.sub` and the similarity ratio are arguments;
  target files are read as they are at the start of the run.
* Fixing JATS files (ModelFixJats): the parser, the serialiser, the current time and
  `relative_path` are arguments; remote files (but see C127) and errors while writing are left out.
* Reading (ModelRead): a remote file is its whole content or an error; errors of the operating
  system are not told apart; temporary directories are new (hypothesis of C127).
* Command lines (ModelArgs): argparse of Python 3.7 without positional arguments;
  every end of the program with a message is one result; the options for running in
  the cloud are arguments with names of their own; `int`, `float` and the digits and
  white space of the unicode data base are arguments.
* Programs (ModelMain): every exception before the run is `Stops`; Beam runs are not modelled
  further; the search for files is a function of the pattern, the limit and the files (where
  names matter: a hypothesis that it gives different names in the directory).
* Configuration files (ModelIni): `ConfigParser` with its default options; all parser and
  interpolation errors are one result; `str.lower`, white space and `int` are arguments;
  the texts in RepoConfig are copies of `config/xml-mapping.conf` and
  `config/segmentation.conf`.
* Downloads: compression and format conversion are an arbitrary function of the
  contents; chunking of `pool.map` is covered by quantifying over all
  interleavings.
* JATS: elements that an earlier step has detached are skipped; references inside
  references are not looked at; text that XML cannot contain is not checked;
  missing text and empty text are kept apart; `etree.tostring` is arbitrary.

## 5. Assumptions reported by Coq

Every `Print Assumptions` of a property theorem reports "Closed under the global
context".  (`vcheck` additionally lists `under_rel` constants of the Coq.ssr
library that is loaded with the standard library; no theorem uses them.)

## 6. Seeded errors

`seeded/LOG.jsonl` records edits of the model (outside this directory) that make
a claim false, the theorems whose proofs then fail, and the theorems that were
added because an edit had gone unnoticed.
