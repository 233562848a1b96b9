{"id": "C01", "title": "Tag prefix round trip", "statement": "Splitting a tag into its begin/inside prefix and value and putting the two back together gives the original tag, and adding a begin or inside prefix to a plain value and splitting again gives that prefix and value back. (Expected exceptions, to be made precise: tags that consist of a prefix only.)", "quantifier": "every tag string, or no tag; every prefix and value", "why_tests_cant": "infinitely many tag strings; the failing ones are rare shapes nobody writes a test for", "anchors": ["sciencebeam_trainer_grobid_tools/core/structured_document/__init__.py:split_tag_prefix", "sciencebeam_trainer_grobid_tools/core/structured_document/__init__.py:add_tag_prefix", "sciencebeam_trainer_grobid_tools/core/structured_document/__init__.py:strip_tag_prefix"]}
{"id": "C02", "title": "Tokenisation is lossless", "statement": "Tokenising any text yields non-empty pieces whose concatenation, in order, is exactly the text; every non-word character is a token of its own and no token contains a lower-case letter directly followed by an upper-case one.", "quantifier": "every text and every classification of characters into word / upper / lower", "why_tests_cant": "ranges over all unicode strings", "anchors": ["sciencebeam_trainer_grobid_tools/structured_document/grobid_training_tei.py:_tokenize_text", "sciencebeam_trainer_grobid_tools/structured_document/grobid_training_tei.py:_iter_split_lower_to_upper_case"]}
{"id": "C03", "title": "Loading keeps the text", "statement": "Loading a TEI container yields lines of tokens; concatenating all token texts (spaces included) of all lines gives exactly the text content of the container (plus the text following it), with nothing dropped, duplicated or reordered, and there is one more line than line-break elements.", "quantifier": "every XML tree and every tag mapping", "why_tests_cant": "ranges over all trees and nestings; unit tests have about thirty fixed shapes", "anchors": ["sciencebeam_trainer_grobid_tools/structured_document/grobid_training_tei.py:_iter_extract_lines_from_element", "sciencebeam_trainer_grobid_tools/structured_document/grobid_training_tei.py:_iter_extract_lines_from_container_elements"]}
{"id": "C04", "title": "Saving keeps the text", "statement": "Writing tagged lines back into a container yields a container whose text content is exactly the concatenation of all token texts in document order, and which contains exactly (number of lines - 1) line-break elements (0 for no lines).", "quantifier": "every list of lines of tokens with any tags, sub tags and any tag-to-path mapping", "why_tests_cant": "ranges over all tag sequences, including ones no annotator test produces", "anchors": ["sciencebeam_trainer_grobid_tools/structured_document/grobid_training_tei.py:_lines_to_tei", "sciencebeam_trainer_grobid_tools/structured_document/grobid_training_tei.py:XmlTreeWriter"]}
{"id": "C05", "title": "A tag ends up at its mapped element", "statement": "After writing, the text of every non-space token with a (mapped) main tag lies inside an element whose path below the container starts with the path the mapping gives for that tag; with a mapped sub tag below that path it lies at exactly the sub tag path; an untagged token (without sub tag) lies directly in the container.", "quantifier": "every list of tagged lines and every mapping", "why_tests_cant": "ranges over all interleavings of main and sub tags", "anchors": ["sciencebeam_trainer_grobid_tools/structured_document/grobid_training_tei.py:_lines_to_tei", "sciencebeam_trainer_grobid_tools/structured_document/grobid_training_tei.py:_get_tag_required_path", "sciencebeam_trainer_grobid_tools/structured_document/grobid_training_tei.py:XmlTreeWriter.require_path"]}
{"id": "C06", "title": "A begin tag starts a new element", "statement": "Two non-space tokens share the same innermost entity element in the output only if no token after the first, up to and including the second, starts a new entity (b- prefix) or has a different main tag value; conversely consecutive tokens continuing an entity (i- tags of the same value) stay in one element.", "quantifier": "every list of tagged lines and every mapping", "why_tests_cant": "ranges over all tag sequences including ignored sub tags", "anchors": ["sciencebeam_trainer_grobid_tools/structured_document/grobid_training_tei.py:_lines_to_tei", "sciencebeam_trainer_grobid_tools/structured_document/grobid_training_tei.py:XmlTreeWriter.require_path_or_below"]}
{"id": "C07", "title": "Save then load gives the same document", "statement": "Saving a document and loading the result yields the same text; the same tags for every token whenever no mapped path is nested in another.", "quantifier": "every document produced by loading and re-tagging, every mapping", "why_tests_cant": "needs the composition of writer and reader on all inputs", "anchors": ["sciencebeam_trainer_grobid_tools/structured_document/grobid_training_tei.py:_updated_tei_with_lines", "sciencebeam_trainer_grobid_tools/structured_document/grobid_training_tei.py:_iter_extract_lines_from_element"]}
{"id": "C08", "title": "Several containers", "statement": "When the container path matches several containers, saving must put each container's own text back in that container (no duplicated text).", "quantifier": "every document with any number of matching containers", "why_tests_cant": "tests only use one container when saving", "anchors": ["sciencebeam_trainer_grobid_tools/structured_document/grobid_training_tei.py:_updated_tei_with_lines", "sciencebeam_trainer_grobid_tools/structured_document/grobid_training_tei.py:GrobidTrainingTeiStructuredDocument"]}
{"id": "C09", "title": "Removing untagged text", "statement": "Removing all untagged text keeps exactly the tagged tokens, each once, in the original order, and drops every untagged one.", "quantifier": "every document with any tags", "why_tests_cant": "tests cover documents with one line only", "anchors": ["sciencebeam_trainer_grobid_tools/structured_document/grobid_training_tei.py:GrobidTrainingTeiStructuredDocument.remove_all_untagged", "sciencebeam_trainer_grobid_tools/annotation/remove_untagged_annotator.py:RemoveUntaggedPostProcessingAnnotator"]}
{"id": "C10", "title": "Preserved tags as fall back", "statement": "Before annotation the existing tags are remembered and cleared; after annotation a token that received no new tag shows its remembered tag, except for fields that are re-annotated; a newly set tag always wins.", "quantifier": "every document, every set of always/never preserved fields, every annotation result", "why_tests_cant": "combination of per-token history and field sets", "anchors": ["sciencebeam_trainer_grobid_tools/structured_document/grobid_training_tei.py:_preserve_current_tags", "sciencebeam_trainer_grobid_tools/structured_document/grobid_training_tei.py:_reset_current_tags", "sciencebeam_trainer_grobid_tools/structured_document/grobid_training_tei.py:get_tag_or_preserved_tag", "sciencebeam_trainer_grobid_tools/annotation/annotator.py:_preserve_tag_fn"]}
{"id": "C11", "title": "Annotators never change the text", "statement": "Whatever sequence of annotators runs, the token texts, their order and their grouping into lines are the same before and after (only RemoveUntagged may drop tokens, and only untagged ones).", "quantifier": "every document, every configuration, every sequence of annotators", "why_tests_cant": "universally quantified over pipelines and oracles", "anchors": ["sciencebeam_trainer_grobid_tools/core/annotation/annotator.py:annotate", "sciencebeam_trainer_grobid_tools/annotation/simple_matching_annotator.py:SimpleMatchingAnnotator", "sciencebeam_trainer_grobid_tools/annotation/segmentation_annotator.py:SegmentationAnnotator", "sciencebeam_trainer_grobid_tools/annotation/reference_annotator.py:ReferencePostProcessingAnnotator"]}
{"id": "C12", "title": "Existing tags are never overwritten by the simple matcher", "statement": "The simple matcher only assigns a main tag to a token that has none; the tag value of an already tagged token is never changed; its search loop always terminates.", "quantifier": "every document, every list of target annotations, every result of the fuzzy search", "why_tests_cant": "the fuzzy search result is unconstrained; tests only show friendly ones", "anchors": ["sciencebeam_trainer_grobid_tools/annotation/simple_matching_annotator.py:SimpleMatchingAnnotator.process_target_annotations", "sciencebeam_trainer_grobid_tools/annotation/simple_matching_annotator.py:SimpleMatchingAnnotator.update_annotation_for_index_range"]}
{"id": "C13", "title": "Character ranges select the overlapping tokens", "statement": "Selecting tokens by a character range of the joined text returns exactly the tokens whose own character range overlaps the requested one, in order; and the character range recorded for a token contains exactly its text in the joined text.", "quantifier": "every list of items, separators, pads, white space lists and ranges", "why_tests_cant": "index arithmetic over all lengths", "anchors": ["sciencebeam_trainer_grobid_tools/annotation/matching_utils.py:join_with_index_ranges", "sciencebeam_trainer_grobid_tools/annotation/matching_utils.py:JoinedText", "sciencebeam_trainer_grobid_tools/annotation/matching_utils.py:SequencesText"]}
{"id": "C14", "title": "Pending sequences are the maximal untagged runs", "statement": "The pending sequences of a line are exactly the maximal runs of consecutive untagged tokens, in order; together they contain every untagged token exactly once and no tagged token.", "quantifier": "every line and every tagging", "why_tests_cant": "ranges over all tag patterns", "anchors": ["sciencebeam_trainer_grobid_tools/annotation/matching_utils.py:SequenceWrapper.untagged_sub_sequences", "sciencebeam_trainer_grobid_tools/core/annotation/matching_annotator.py:SequenceWrapper.untagged_sub_sequences"]}
{"id": "C15", "title": "Clustering of match ranges", "statement": "Merging related match ranges into clusters terminates, loses or duplicates no range, and leaves no two adjacent clusters that should be merged; the selected cluster has maximal length and its ranges are returned, the others are reported unselected.", "quantifier": "every list of index ranges", "why_tests_cant": "fix-point loop with data dependent termination", "anchors": ["sciencebeam_trainer_grobid_tools/annotation/simple_matching_annotator.py:merge_related_clusters", "sciencebeam_trainer_grobid_tools/annotation/simple_matching_annotator.py:IndexRangeCluster", "sciencebeam_trainer_grobid_tools/annotation/simple_matching_annotator.py:select_index_ranges"]}
{"id": "C16", "title": "Extending tags to the whole line", "statement": "Extending tags over a line never changes the number of tags, never changes the tag value of a tagged token, and only fills gaps with the tag value of an adjacent tagged token for which merging or extension is enabled.", "quantifier": "every list of token tags and every configuration", "why_tests_cant": "all tag patterns and config maps", "anchors": ["sciencebeam_trainer_grobid_tools/annotation/simple_matching_annotator.py:get_extended_line_token_tags"]}
{"id": "C17", "title": "Line number selection is an increasing sequence", "statement": "The tokens selected as line numbers of a page form sequences of strictly increasing numbers at non-decreasing positions, each step at most 1 + allowed gap, each sequence at least as long as the minimum.", "quantifier": "every page and every candidate list", "why_tests_cant": "sorting and greedy scanning over all candidate lists", "anchors": ["sciencebeam_trainer_grobid_tools/annotation/line_number_annotator.py:get_line_number_candidates"]}
{"id": "C18", "title": "Line numbers only on pages that look numbered", "statement": "No token is tagged as line number on a page unless the candidates reach the configured minimum count and ratio; when they do all selected candidates are tagged and nothing else is.", "quantifier": "every page and every configuration", "why_tests_cant": "all documents", "anchors": ["sciencebeam_trainer_grobid_tools/annotation/line_number_annotator.py:TextLineNumberAnnotator"]}
{"id": "C19", "title": "Expanding to untagged neighbours", "statement": "Expanding to previous / following untagged lines tags only tokens that were untagged, only with an enabled tag of an adjacent block, leaves all existing tag values and never leaves a hole between the expanded tokens and the block.", "quantifier": "every document and every set of tags", "why_tests_cant": "all tag patterns", "anchors": ["sciencebeam_trainer_grobid_tools/annotation/expand_to_untagged_lines_annotator.py:ExpandToPreviousUntaggedLinesPostProcessingAnnotator"]}
{"id": "C20", "title": "Merging group tags", "statement": "Group merging only tags tokens that had no tag (at the configured level), always with the group tag of the nearest preceding tagged token, and leaves every tagged token as it is.", "quantifier": "every document and every group mapping", "why_tests_cant": "all tag patterns", "anchors": ["sciencebeam_trainer_grobid_tools/annotation/merge_group_tags_annotator.py:MergeGroupTagsPostProcessingAnnotator"]}
{"id": "C21", "title": "Segmentation assigns every line", "statement": "After segmentation without tag preservation every non-blank line has one segmentation tag on all its tokens, and the tag is body, front, page, headnote, annex, reference or a mapped/majority tag; no line is left untagged.", "quantifier": "every document, mapping and configuration", "why_tests_cant": "six passes interact over all documents", "anchors": ["sciencebeam_trainer_grobid_tools/annotation/segmentation_annotator.py:SegmentationAnnotator.annotate"]}
{"id": "C22", "title": "Missing page numbers lie between existing ones", "statement": "A line is tagged as a page number by the gap filling step only if it is untagged, consists of digits only, lies between two existing page number lines (or before the first) and its number lies strictly between theirs; numbers tagged in one gap are increasing.", "quantifier": "every document", "why_tests_cant": "all candidate sequences", "anchors": ["sciencebeam_trainer_grobid_tools/annotation/segmentation_annotator.py:find_missing_page_numbers"]}
{"id": "C23", "title": "Page headers", "statement": "A line becomes a headnote only if its text occurs at least twice among the untagged lines, has at least two words, is not only digits and first occurs before the threshold; lines that already have a tag keep it.", "quantifier": "every document", "why_tests_cant": "all combinations of repeated text and tags", "anchors": ["sciencebeam_trainer_grobid_tools/annotation/segmentation_annotator.py:find_and_tag_page_headers"]}
{"id": "C24", "title": "Reference prefix and suffix extension", "statement": "Extending identifier prefixes, name suffixes and et al. keeps the number of tags, keeps the tag value of every tagged token (except et al. being mapped to the preceding name tag) and only tags untagged tokens directly before / after an enabled group with its tag value.", "quantifier": "every tag list, text list, white space list and regular expression result", "why_tests_cant": "all tag patterns and match positions", "anchors": ["sciencebeam_trainer_grobid_tools/annotation/reference_annotator.py:get_prefix_extended_token_tags", "sciencebeam_trainer_grobid_tools/annotation/reference_annotator.py:get_suffix_extended_token_tags", "sciencebeam_trainer_grobid_tools/annotation/reference_annotator.py:get_etal_mapped_tags"]}
{"id": "C25", "title": "References are processed one at a time", "statement": "Grouping tokens into entities partitions the token sequence in order; every group has one tag value and a begin tag occurs only at the start of a group.", "quantifier": "every token sequence", "why_tests_cant": "all tag patterns", "anchors": ["sciencebeam_trainer_grobid_tools/annotation/reference_annotator.py:_iter_group_tokens_by_tag_entity", "sciencebeam_trainer_grobid_tools/annotation/checks.py:iter_structured_document_entities"]}
{"id": "C26", "title": "Junk removal is a filter", "statement": "Removing junk from a text gives exactly the non-junk characters in their original order.", "quantifier": "every text and every junk predicate", "why_tests_cant": "all strings", "anchors": ["sciencebeam_trainer_grobid_tools/core/annotation/fuzzy_match.py:remove_junk"]}
{"id": "C27", "title": "Inverting index ranges", "statement": "The inverted ranges contain exactly the positions of the outer range that no given range contains, for sorted disjoint ranges.", "quantifier": "every sorted list of ranges and every outer range", "why_tests_cant": "all range lists", "anchors": ["sciencebeam_trainer_grobid_tools/core/annotation/fuzzy_match.py:invert_index_ranges"]}
{"id": "C28", "title": "Match ratios stay between 0 and 1", "statement": "The ratios of a match result never exceed 1 and never divide by zero, for matching blocks that are in order and within bounds.", "quantifier": "every pair of strings, every junk predicate and every valid block list", "why_tests_cant": "arithmetic over all block lists", "anchors": ["sciencebeam_trainer_grobid_tools/core/annotation/fuzzy_match.py:FuzzyMatchResult", "sciencebeam_trainer_grobid_tools/utils/fuzzy.py:FuzzyMatchResult"]}
{"id": "C29", "title": "Splitting a match result", "statement": "Splitting a match at a position distributes the matched characters over both parts without losing or duplicating any, and each block of both parts still pairs equal characters.", "quantifier": "every valid match result and split position", "why_tests_cant": "all block lists and positions", "anchors": ["sciencebeam_trainer_grobid_tools/core/annotation/fuzzy_match.py:FuzzyMatchResult.a_split_at", "sciencebeam_trainer_grobid_tools/core/annotation/fuzzy_match.py:FuzzyMatchResult.b_split_at"]}
{"id": "C30", "title": "Word matcher blocks are real matches", "statement": "Every block of the word sequence matcher pairs equal texts in both strings, in increasing order and within bounds.", "quantifier": "every pair of strings and every result of the underlying sequence matcher on the words", "why_tests_cant": "all strings", "anchors": ["sciencebeam_trainer_grobid_tools/utils/fuzzy.py:WordSequenceMatcher", "sciencebeam_trainer_grobid_tools/utils/fuzzy.py:split_with_offset"]}
{"id": "C31", "title": "String views map back correctly", "statement": "A filtered string view contains exactly the kept characters in order and every view position maps to the original position of the same character; a range of the view maps to a range of the original with the same kept text.", "quantifier": "every string and every filter", "why_tests_cant": "all strings and masks", "anchors": ["sciencebeam_trainer_grobid_tools/utils/fuzzy.py:StringView"]}
{"id": "C32", "title": "Chunked search always makes progress", "statement": "The strided search over a long text terminates, visits chunks at strictly increasing offsets that together cover the text, for every configuration reachable through the public function.", "quantifier": "every needle, haystack and parameters", "why_tests_cant": "termination", "anchors": ["sciencebeam_trainer_grobid_tools/utils/fuzzy.py:get_str_left_strided_matching_blocks_chunks", "sciencebeam_trainer_grobid_tools/utils/fuzzy.py:fuzzy_search_chunks"]}
{"id": "C33", "title": "Finding all matches terminates", "statement": "Iterating over all fuzzy matches terminates, yields matches with strictly increasing, non-overlapping ranges inside the haystack.", "quantifier": "every needle, haystack and search result", "why_tests_cant": "termination for all oracles", "anchors": ["sciencebeam_trainer_grobid_tools/utils/fuzzy.py:iter_fuzzy_search_all"]}
{"id": "C34", "title": "Match positions refer to the haystack", "statement": "The index range reported by a (chunked or offset) search is the range of the matched text in the whole haystack, regardless of the start index.", "quantifier": "every haystack, needle and start index", "why_tests_cant": "index shifts over all inputs", "anchors": ["sciencebeam_trainer_grobid_tools/utils/fuzzy.py:fuzzy_search_index_range", "sciencebeam_trainer_grobid_tools/utils/fuzzy.py:get_offset_matching_blocks"]}
{"id": "C35", "title": "White space stripping", "statement": "Normalising the white space of a target value turns every maximal run of tabs, spaces, carriage returns and line feeds into one line feed if the run has a line break and one space otherwise; all other characters are kept in order, the result is its own normal form, and stripped text content has no surrounding white space.", "quantifier": "every string", "why_tests_cant": "the replacement loop runs until nothing changes, six rules interact; all run lengths and mixtures", "anchors": ["sciencebeam_trainer_grobid_tools/core/annotation/target_annotation.py:strip_whitespace"]}
{"id": "C36", "title": "Target annotation order", "statement": "Target annotations are processed by descending priority, ties in document order, and nothing is lost.", "quantifier": "every document and priority map", "why_tests_cant": "all permutations", "anchors": ["sciencebeam_trainer_grobid_tools/core/annotation/target_annotation.py:xml_root_to_target_annotations"]}
{"id": "C37", "title": "Field filters", "statement": "Selecting fields (and sub fields) of the annotation mapping keeps exactly the options belonging to the selected fields, unchanged and in order.", "quantifier": "every mapping and every selection", "why_tests_cant": "all key shapes", "anchors": ["sciencebeam_trainer_grobid_tools/auto_annotate_utils.py:get_filtered_xml_mapping_and_fields", "sciencebeam_trainer_grobid_tools/auto_annotate_utils.py:get_xml_mapping_with_filtered_sub_fields"]}
{"id": "C38", "title": "Plus / minus lists", "statement": "A +/- list applied to default fields yields a set defined by the additions and removals only; a plain list replaces the defaults; an item is in the result exactly when the last statement about it says so.", "quantifier": "every argument string and default list", "why_tests_cant": "all strings", "anchors": ["sciencebeam_trainer_grobid_tools/utils/string.py:plus_minus_comma_separated_str_to_list"]}
{"id": "C39", "title": "Key/value arguments", "statement": "Parsing key=value lists and alternative spellings yields a map with exactly the given keys and, for each key, its values.", "quantifier": "every argument string", "why_tests_cant": "all strings", "anchors": ["sciencebeam_trainer_grobid_tools/utils/string.py:parse_dict", "sciencebeam_trainer_grobid_tools/annotation/simple_matching_annotator.py:parse_alternative_spellings"]}
{"id": "C40", "title": "Quality checks decide by the tagged text", "statement": "A document passes exactly if every required field is in the target data and every checked field that is in the target data is tagged and its tagged text is similar enough; entity texts contain every tagged token exactly once.", "quantifier": "every document, field sets, targets and similarity function", "why_tests_cant": "all combinations", "anchors": ["sciencebeam_trainer_grobid_tools/annotation/checks.py:is_structured_document_passing_checks"]}
{"id": "C41", "title": "One output per input", "statement": "Processing a document writes exactly one file: to the output path if the checks pass, to the failed path if they fail and it is configured, none otherwise.", "quantifier": "every document and configuration", "why_tests_cant": "all outcomes", "anchors": ["sciencebeam_trainer_grobid_tools/auto_annotate_utils.py:AbstractAnnotatePipelineFactory.auto_annotate"]}
{"id": "C42", "title": "Resume processes exactly the remaining files", "statement": "With resume, exactly the files without an existing output are processed, in order.", "quantifier": "every file list and every file system state", "why_tests_cant": "all states", "anchors": ["sciencebeam_trainer_grobid_tools/auto_annotate_utils.py:get_file_list_without_output_file"]}
{"id": "C43", "title": "Parallel runs give the sequential result", "statement": "For inputs with distinct file names, any schedule of the worker pool leaves the same output files with the same contents as processing the files one by one.", "quantifier": "every file list, number of workers and interleaving", "why_tests_cant": "schedules", "anchors": ["sciencebeam_trainer_grobid_tools/auto_annotate_utils.py:AbstractAnnotatePipelineFactory.run_local_pipeline", "sciencebeam_trainer_grobid_tools/auto_annotate_utils.py:AbstractAnnotatePipelineFactory._auto_annotate"]}
{"id": "C44", "title": "Crash and resume", "statement": "After a crash at any point, running again with resume produces the same final output as an uninterrupted run.", "quantifier": "every crash point, file list and schedule", "why_tests_cant": "crash points", "anchors": ["sciencebeam_trainer_grobid_tools/auto_annotate_utils.py:AbstractAnnotatePipelineFactory.run", "sciencebeam_trainer_grobid_tools/auto_annotate_utils.py:AbstractAnnotatePipelineFactory.get_remaining_source_file_list", "sciencebeam_trainer_grobid_tools/structured_document/grobid_training_tei.py:save_grobid_training_tei_structured_document"]}
{"id": "C45", "title": "One failing file does not affect the others", "statement": "A failure in one file leaves the outputs of all other files as if it was not in the list; the run fails exactly if errors are not skipped.", "quantifier": "every file list and every subset of failing files", "why_tests_cant": "all failure sets", "anchors": ["sciencebeam_trainer_grobid_tools/auto_annotate_utils.py:AbstractAnnotatePipelineFactory._auto_annotate"]}
{"id": "C46", "title": "Downloads keep documents and targets paired", "statement": "After downloading, the i-th document output and the i-th target output belong to the same input row, only rows where both exist are copied, and with distinct output names every output has the content of its source.", "quantifier": "every pair of file lists, existence map and thread schedule", "why_tests_cant": "all lists and schedules", "anchors": ["sciencebeam_trainer_grobid_tools/download_source_files.py:filter_file_pair_exists", "sciencebeam_trainer_grobid_tools/download_source_files.py:get_output_file_list", "sciencebeam_trainer_grobid_tools/download_source_files.py:copy_files"]}
{"id": "C47", "title": "Fixing annotations keeps the text", "statement": "Annotating a text range inside a JATS node with a new element leaves the text content of the node unchanged and the new element contains exactly the range.", "quantifier": "every node and every range", "why_tests_cant": "all trees and ranges", "anchors": ["sciencebeam_trainer_grobid_tools/fix_jats_xml.py:add_annotation_to_element_if_matching"]}
{"id": "C48", "title": "Replacing an element by text keeps the text", "statement": "Replacing an element by its text or moving text in or out of an annotation keeps the text content of the parent.", "quantifier": "every node", "why_tests_cant": "all trees", "anchors": ["sciencebeam_trainer_grobid_tools/fix_jats_xml.py:replace_element_with_text", "sciencebeam_trainer_grobid_tools/fix_jats_xml.py:change_annotation_to_matching_text"]}
{"id": "C49", "title": "DOI and URL search results lie inside the text", "statement": "The reported DOI range is a sub string of the text that starts with 10., and splitting a URL only cuts: the parts concatenate to the input.", "quantifier": "every text", "why_tests_cant": "all strings", "anchors": ["sciencebeam_trainer_grobid_tools/fix_jats_xml.py:find_doi_start_end", "sciencebeam_trainer_grobid_tools/fix_jats_xml.py:split_url"]}
{"id": "C50", "title": "Repaired mark-up is well nested", "statement": "The output of the mark-up repair is well nested: every start tag is closed by a matching end tag in the right order.", "quantifier": "every sequence of parser events", "why_tests_cant": "all event sequences", "anchors": ["sciencebeam_trainer_grobid_tools/utils/xml.py:FixingHtmlParser"]}
{"id": "C51", "title": "Mark-up repair keeps the text", "statement": "The repair keeps all character data, entities and processing instructions in order, and leaves well nested input as it is.", "quantifier": "every sequence of parser events", "why_tests_cant": "all event sequences", "anchors": ["sciencebeam_trainer_grobid_tools/utils/xml.py:FixingHtmlParser"]}
{"id": "C52", "title": "Sub tag only annotation", "statement": "Annotating only sub tags leaves every main tag (of non-space tokens) as it was before.", "quantifier": "every document and inner annotator", "why_tests_cant": "all documents and annotators", "anchors": ["sciencebeam_trainer_grobid_tools/annotation/sub_tag_annotator.py:SubTagOnlyAnnotator"]}
{"id": "C53", "title": "Replacing tags", "statement": "Replacing tags replaces every occurrence of a listed tag value and leaves all others.", "quantifier": "every document and replacement map", "why_tests_cant": "all tag patterns incl. preserved tags", "anchors": ["sciencebeam_trainer_grobid_tools/annotation/replace_tags_annotator.py:ReplaceTagsPostProcessingAnnotator"]}
{"id": "C54", "title": "The complex matcher never overwrites tags", "statement": "The complex matcher never changes a tag a token already has, and only tags tokens of matched sequences.", "quantifier": "every document, target list and match result", "why_tests_cant": "all match results", "anchors": ["sciencebeam_trainer_grobid_tools/core/annotation/matching_annotator.py:MatchingAnnotator", "sciencebeam_trainer_grobid_tools/core/annotation/matching_annotator.py:_apply_annotations_to_matches"]}
{"id": "C55", "title": "Common path", "statement": "The writer keeps exactly the open elements shared by the current and the required path: the longest common prefix.", "quantifier": "every pair of paths", "why_tests_cant": "all lists", "anchors": ["sciencebeam_trainer_grobid_tools/structured_document/grobid_training_tei.py:_get_common_path"]}
{"id": "C56", "title": "When loading fails", "statement": "Loading a container succeeds exactly when no visited element has more than one attribute and there are no comments or processing instructions among its descendants.", "quantifier": "every XML tree", "why_tests_cant": "all trees", "anchors": ["sciencebeam_trainer_grobid_tools/structured_document/grobid_training_tei.py:_node_to_tag_expression", "sciencebeam_trainer_grobid_tools/structured_document/grobid_training_tei.py:_iter_extract_lines_from_element"]}
{"id": "C57", "title": "Tags at load", "statement": "At load every token below a tagged element gets the tag the mapping gives for the outermost matching element, a begin prefix exactly on its first token, tokens outside are untagged.", "quantifier": "every XML tree and mapping", "why_tests_cant": "all trees", "anchors": ["sciencebeam_trainer_grobid_tools/structured_document/grobid_training_tei.py:_iter_extract_lines_from_element", "sciencebeam_trainer_grobid_tools/structured_document/grobid_training_tei.py:TokenWriter"]}
{"id": "C58", "title": "Values extracted with a regular expression", "statement": "Splitting a value with extract-regex keeps every character that is not white space in one of the pieces, offers every matched text and, with more than one piece, the full text.", "quantifier": "every text and every ordered list of matches", "why_tests_cant": "positions next to a match; off-by-one at the end of a match", "anchors": ["sciencebeam_trainer_grobid_tools/core/annotation/target_annotation.py:extract_using_regex"]}
{"id": "C59", "title": "Raw text content", "statement": "Joining the texts of an element adds one space exactly between a text ending with a word character and a text starting with one and changes nothing else.", "quantifier": "every list of texts", "why_tests_cant": "all texts, including multi-line ones", "anchors": ["sciencebeam_trainer_grobid_tools/annotation/target_annotation.py:get_raw_text_content"]}
{"id": "C60", "title": "Ignored children", "statement": "The text with ignored children is the text content of the element with exactly the ignored nodes emptied; text after an ignored node is kept.", "quantifier": "every tree and every set of ignored nodes", "why_tests_cant": "all trees, nested ignored nodes, comments", "anchors": ["sciencebeam_trainer_grobid_tools/utils/xml.py:iter_text_content_and_exclude"]}
{"id": "C61", "title": "Detection of raw text", "statement": "An element is considered to have raw text exactly when some character that is not white space lies outside all childless descendants.", "quantifier": "every tree", "why_tests_cant": "all nestings", "anchors": ["sciencebeam_trainer_grobid_tools/annotation/target_annotation.py:contains_raw_text"]}
{"id": "C62", "title": "Mapping overrides and sub mappings", "statement": "Overrides replace or add exactly the given options in every section and leave all others unchanged; the sub mapping of a field has exactly its options field.sub.NAME with a plain NAME.", "quantifier": "every mapping and every override", "why_tests_cant": "all key shapes and collisions", "anchors": ["sciencebeam_trainer_grobid_tools/auto_annotate_utils.py:get_xml_mapping_with_overrides", "sciencebeam_trainer_grobid_tools/core/annotation/target_annotation.py:get_sub_mapping"]}
{"id": "C63", "title": "Merging segmentation gaps", "statement": "Merging tags exactly the untagged lines that lie between two lines with the same enabled segmentation tag (page and headnote lines do not count, the document starts with front), and those after the last tagged line if its tag is a remaining tag; every other line is unchanged.", "quantifier": "every list of lines, every set of enabled and remaining tags", "why_tests_cant": "The result of a line depends on arbitrarily distant lines before and after it; tests cover a few arrangements.", "anchors": ["sciencebeam_trainer_grobid_tools/annotation/segmentation_annotator.py:merge_lines"]}
{"id": "C64", "title": "Late front blocks", "statement": "A line loses its tags in the threshold step exactly if it is tagged as front and the block of consecutive front lines it belongs to starts after the configured line index; the threshold 0 switches the step off.", "quantifier": "every list of lines, every threshold", "why_tests_cant": "Blocks of any length at any place; the block start is state carried through the loop.", "anchors": ["sciencebeam_trainer_grobid_tools/annotation/segmentation_annotator.py:clear_front_tags_for_front_blocks_starting_after_threshold"]}
{"id": "C65", "title": "Reference post-processing of a document", "statement": "The reference annotator changes only sub tags of words; the new sub tags of every reference (entity of main tags) are a function of that reference's own tokens, and it only fails if an enabled prefix field has no regular expression.", "quantifier": "every document, configuration and regular expression result", "why_tests_cant": "all documents and groupings", "anchors": ["sciencebeam_trainer_grobid_tools/annotation/reference_annotator.py:ReferencePostProcessingAnnotator.annotate"]}
{"id": "C66", "title": "A match over a line break marks the matching words", "statement": "If a value is found in the text of two neighbouring lines together, the words of the second line that are marked are those overlapping the found part.", "quantifier": "every pair of lines, value and match result", "why_tests_cant": "off-by-one errors show only for particular word lengths and match ends", "anchors": ["sciencebeam_trainer_grobid_tools/core/annotation/matching_annotator.py:TargetAnnotationMatchFinder", "sciencebeam_trainer_grobid_tools/core/annotation/matching_annotator.py:SequenceMatch"]}
{"id": "C67", "title": "Download names", "statement": "For a relative path without empty parts, the dir and filename fields of the output pattern concatenate to the path; name and ext concatenate to the file name except for a .gz suffix; a target pattern built from document.name gives the name of the document of the same row.", "quantifier": "every path and pattern suffix", "why_tests_cant": "all paths", "anchors": ["sciencebeam_trainer_grobid_tools/download_source_files.py:get_filename_pattern_props", "sciencebeam_trainer_grobid_tools/download_source_files.py:get_relative_output_filename"]}
{"id": "C68", "title": "Fixing a reference keeps its text", "statement": "All fourteen steps of fixing a JATS reference together leave the text content of the reference unchanged, so no character is lost, added or moved.", "quantifier": "every reference and every behaviour of the regular expressions within their ranges", "why_tests_cant": "all trees; the steps feed one another", "anchors": ["sciencebeam_trainer_grobid_tools/fix_jats_xml.py:fix_reference"]}
{"id": "C69", "title": "Fixing a reference does not raise", "statement": "Fixing a JATS reference never raises an exception.", "quantifier": "every reference", "why_tests_cant": "all trees, including empty elements and elements next to each other", "anchors": ["sciencebeam_trainer_grobid_tools/fix_jats_xml.py:fix_reference", "sciencebeam_trainer_grobid_tools/fix_jats_xml.py:replace_doi_annotation_with_ext_link_if_url"]}
{"id": "C70", "title": "Only references change and the meta data name the changed ones", "statement": "Fixing a JATS document leaves everything but the references of the back matter as it was and keeps their number, order, names and attributes; the check of their number never fails; the meta data name exactly the references that are written differently; adding the meta data leaves all other elements as they are; the document keeps its text if its references do.", "quantifier": "every document and every way to write elements", "why_tests_cant": "all trees", "anchors": ["sciencebeam_trainer_grobid_tools/fix_jats_xml.py:fix_jats_xml_node", "sciencebeam_trainer_grobid_tools/fix_jats_xml.py:iter_get_changed_original_references", "sciencebeam_trainer_grobid_tools/fix_jats_xml.py:add_jats_meta_data"]}
{"id": "C71", "title": "White space of loaded tokens", "statement": "In every line of a loaded training document the white space stored with a token is the text of the next token if that is white space, empty if the next token is not, and missing for the last token of the line.", "quantifier": "every document, mapping and preservation mode that loads", "why_tests_cant": "all trees and texts", "anchors": ["sciencebeam_trainer_grobid_tools/structured_document/grobid_training_tei.py:LineBuffer", "sciencebeam_trainer_grobid_tools/structured_document/grobid_training_tei.py:append_tokenized_text_token"]}
{"id": "C72", "title": "A match marks exactly the untagged words in its range", "statement": "The ranges marked for a target annotation of the simple matcher are exactly those its search finds: the first spelling that is long enough and has a match, or the merged cluster of the matches of a list of values; no range is returned only if no spelling is found, and values shorter than the minimum length are never found. Marking a range gives the begin tag to the first untagged word of the range, the inside tag to the others and changes no other token. Placeholders in prefix patterns are replaced by the escaped sub annotation values and everything else of the pattern stays.", "quantifier": "every document, configuration, annotation, search function and text", "why_tests_cant": "all documents and all search results", "anchors": ["sciencebeam_trainer_grobid_tools/annotation/simple_matching_annotator.py:SimpleMatchingAnnotator.update_annotation_for_index_range", "sciencebeam_trainer_grobid_tools/annotation/simple_matching_annotator.py:SimpleMatchingAnnotator.iter_matching_index_ranges", "sciencebeam_trainer_grobid_tools/annotation/simple_matching_annotator.py:SimpleMatchingAnnotator.resolve_regex_placeholders"]}
{"id": "C73", "title": "Annotations that are left over are not found in the remaining text", "statement": "Every run of the simple matcher is a sequence of rounds, each of which marks one annotation in the text of words that are untagged; when the run ends with annotations left over, each of them is not found in the text of the words that are untagged at the end, taken line by line in reading order.", "quantifier": "every document, list of annotations, configuration and search function", "why_tests_cant": "all lists of annotations and all interleavings of rounds", "anchors": ["sciencebeam_trainer_grobid_tools/annotation/simple_matching_annotator.py:SimpleMatchingAnnotator.process_target_annotations", "sciencebeam_trainer_grobid_tools/annotation/simple_matching_annotator.py:SimpleMatchingAnnotator._do_annotate"]}
{"id": "C74", "title": "Runs of the complex matcher: closeness, bonding and waiting matches", "statement": "Every run of the complex matcher is a sequence of searches in which each sequence matched lies within the maximal gap of one matched before for the same annotation (for bonding annotations: of the same name), the matches of a list of values are dropped if the annotation is bonding, not an author and only one part was found, and a match that requires a next one is marked exactly if the following search finds matches next to it. The default filters accept exactly the matches whose ratios reach the thresholds.", "quantifier": "every document, list of annotations, matching function and filter", "why_tests_cant": "all sequences of search results and positions", "anchors": ["sciencebeam_trainer_grobid_tools/core/annotation/matching_annotator.py:MatchingAnnotator.annotate", "sciencebeam_trainer_grobid_tools/core/annotation/matching_annotator.py:PositionedSequenceSet", "sciencebeam_trainer_grobid_tools/core/annotation/matching_annotator.py:distance_between_matches", "sciencebeam_trainer_grobid_tools/core/annotation/matching_annotator.py:get_fuzzy_match_filter"]}
{"id": "C75", "title": "The complex matcher marks exactly the untagged words of its matches", "statement": "Applying the matches of an annotation gives its tag to exactly the words of the matches that have no tag, the first of them the begin tag and the others the inside tag; sub tags change only in these words and only to those of the sub annotations.", "quantifier": "every document, annotation and list of matches", "why_tests_cant": "all lists of matches, overlapping or not", "anchors": ["sciencebeam_trainer_grobid_tools/core/annotation/matching_annotator.py:_apply_annotations_to_matches", "sciencebeam_trainer_grobid_tools/core/annotation/matching_annotator.py:_apply_sub_annotations"]}
{"id": "C76", "title": "What is found in the text of a reference", "statement": "The cutting of a DOI at a word like PMID, the removal of a repeated DOI, the place of an article title (shortest text on the first line in front of a comma, a PMC ID or nothing; without quotes) and the new address of a link are exactly as described by a small specification; a reference gets at most one new element for an ID however often it is there (comments aside). Commas and spaces behind the last child of a title are moved behind the title, those in the title itself or in its last child stay.", "quantifier": "every text, every reference tree and every finder of IDs", "why_tests_cant": "all texts and trees", "anchors": ["sciencebeam_trainer_grobid_tools/fix_jats_xml.py:truncate_doi_at_known_tokens", "sciencebeam_trainer_grobid_tools/fix_jats_xml.py:remove_duplicate_doi", "sciencebeam_trainer_grobid_tools/fix_jats_xml.py:find_article_title_start_end", "sciencebeam_trainer_grobid_tools/fix_jats_xml.py:add_annotation_to_reference_element_if_matching", "sciencebeam_trainer_grobid_tools/fix_jats_xml.py:remove_training_comma_from_element"]}
{"id": "C79", "title": "Annotators invent no tags", "statement": "After all annotators of a command have run, every tag value (main or sub, shown or remembered) of a token is one loaded from the file, or a name that an annotator of the list is configured to write at that level: a target annotation's name, a configured line number tag, a segmentation name, a reference group or a replacement.", "quantifier": "every tree, every list of annotators and every configuration", "why_tests_cant": "all documents and all lists of annotators", "anchors": ["sciencebeam_trainer_grobid_tools/core/annotation/annotator.py:annotate", "sciencebeam_trainer_grobid_tools/annotation/simple_matching_annotator.py:SimpleMatchingAnnotator", "sciencebeam_trainer_grobid_tools/core/annotation/matching_annotator.py:MatchingAnnotator", "sciencebeam_trainer_grobid_tools/annotation/segmentation_annotator.py:SegmentationAnnotator", "sciencebeam_trainer_grobid_tools/annotation/reference_annotator.py:ReferencePostProcessingAnnotator", "sciencebeam_trainer_grobid_tools/annotation/merge_group_tags_annotator.py:MergeGroupTagsPostProcessingAnnotator"]}
{"id": "C77", "title": "Namespace prefixes in tag mappings", "statement": "A path of elements written with a namespace prefix becomes the path of the same elements with the namespace in braces, and this path is cut into exactly these elements when saving, though the namespace itself contains slashes; expressions without a colon, and the prefix at the end of a longer word, are left alone.", "quantifier": "every prefix, namespace and list of names; every classification of word characters", "why_tests_cant": "all expressions", "anchors": ["sciencebeam_trainer_grobid_tools/auto_annotate_utils.py:_resolve_tag_expression_namespace", "sciencebeam_trainer_grobid_tools/auto_annotate_utils.py:_resolve_tag_to_tei_mapping_namespace"]}
{"id": "C78", "title": "What a command saves it loads again", "statement": "For every command but segmentation and every list of fields without the field other, the element a tag (or untagged text) is saved in is loaded as the same tag (as untagged), and different tags have different elements. For segmentation this holds for the tags; untagged text is loaded as body. With the field other it fails.", "quantifier": "every command and every list of fields", "why_tests_cant": "all lists of fields", "anchors": ["sciencebeam_trainer_grobid_tools/auto_annotate_header.py:AnnotatePipelineFactory", "sciencebeam_trainer_grobid_tools/auto_annotate_segmentation.py:AnnotatePipelineFactory", "sciencebeam_trainer_grobid_tools/auto_annotate_reference.py:AnnotatePipelineFactory"]}
{"id": "C80", "title": "Every command can save what it has annotated", "statement": "If annotating succeeded, the source has its container, its elements and the added fields have no slashes or braces in attribute values, and the names in the input files are usual tag names, then saving succeeds, for each of the eight commands and all options. A field with a slash, or a link in the source (slash in an attribute value), makes saving fail.", "quantifier": "every command, all options, sources, target annotations and configurations", "why_tests_cant": "all combinations of tags and elements", "anchors": ["sciencebeam_trainer_grobid_tools/auto_annotate_utils.py:AbstractAnnotatePipelineFactory", "sciencebeam_trainer_grobid_tools/structured_document/grobid_training_tei.py:_lines_to_tei", "sciencebeam_trainer_grobid_tools/structured_document/grobid_training_tei.py:_parse_tag_expression"]}
{"id": "C81", "title": "Commands keep the text", "statement": "Each of the eight commands saves a tree with exactly the text of its source, whatever its options, targets and configuration, unless the option to remove untagged text is given to the reference or affiliation command.", "quantifier": "every command, all options, sources with one container, targets and configurations", "why_tests_cant": "all combinations of options", "anchors": ["sciencebeam_trainer_grobid_tools/auto_annotate_header.py:AnnotatePipelineFactory", "sciencebeam_trainer_grobid_tools/auto_annotate_fulltext.py:AnnotatePipelineFactory", "sciencebeam_trainer_grobid_tools/auto_annotate_utils.py:AbstractAnnotatePipelineFactory"]}
{"id": "C82", "title": "Without segmentation the entities of the source stay", "statement": "The figure, table, reference and affiliation commands without their segmentation option leave exactly the main tag of their own field on the tokens it was loaded for, with the same begin prefix, and no token has any other main tag.", "quantifier": "every source, all options, targets and configurations", "why_tests_cant": "all documents and all options", "anchors": ["sciencebeam_trainer_grobid_tools/auto_annotate_figure.py:AnnotatePipelineFactory", "sciencebeam_trainer_grobid_tools/auto_annotate_reference.py:AnnotatePipelineFactory", "sciencebeam_trainer_grobid_tools/annotation/sub_tag_annotator.py:SubTagOnlyAnnotator"]}
{"id": "C83", "title": "Segmentation checks decide by the text of the segment", "statement": "A segmentation document passes exactly if every required field is in the target data and the value of every checked field is found by the fuzzy search in the joined text of the segment that its field is annotated as (the last one listing it). If all checked fields with a value are listed there is no error and the iteration order of the set of fields is irrelevant; for a field that is not listed the result depends on that order.", "quantifier": "every document, field sets in every order, target values and mapping", "why_tests_cant": "all iteration orders of a set of strings", "anchors": ["sciencebeam_trainer_grobid_tools/auto_annotate_segmentation.py:is_segmentation_structured_document_passing_checks", "sciencebeam_trainer_grobid_tools/annotation/checks.py:get_required_target_value_by_name"]}
{"id": "C84", "title": "Fixing figure sources", "statement": "The fix of a figure source takes out exactly the closing content tags of a document without opening ones and leaves every other document as it is; in a document whose tags are closed no closing content tag without an opening one is left. Without that condition a new one can arise.", "quantifier": "every byte string", "why_tests_cant": "all byte strings", "anchors": ["sciencebeam_trainer_grobid_tools/auto_annotate_figure.py:fix_source_file_to"]}
{"id": "C85", "title": "Substitution patterns", "statement": "A file name pattern is accepted exactly if its first character occurs three times; what is matched and replaced are the parts between them, the options behind have no effect, and the target file of a source does not depend on the directory of the source.", "quantifier": "every pattern, name and path", "why_tests_cant": "all strings", "anchors": ["sciencebeam_trainer_grobid_tools/utils/regex.py:_parse_subsitution_pattern", "sciencebeam_trainer_grobid_tools/utils/regex.py:regex_change_name", "sciencebeam_trainer_grobid_tools/auto_annotate_utils.py:AbstractAnnotatePipelineFactory"]}
{"id": "C86", "title": "Tag configurations", "statement": "The tag configuration map has exactly the fields (option names without a dot) of all sections, each with the configuration its options say, the last section deciding; it is computed without error exactly if all options of fields are valid, whatever the order of the set; a field without options is configured like a tag that is not in the map.", "quantifier": "every mapping and iteration order", "why_tests_cant": "all mappings", "anchors": ["sciencebeam_trainer_grobid_tools/annotation/simple_matching_annotator.py:get_simple_tag_config", "sciencebeam_trainer_grobid_tools/annotation/simple_matching_annotator.py:get_simple_tag_config_map", "sciencebeam_trainer_grobid_tools/annotation/simple_matching_annotator.py:parse_regex"]}
{"id": "C87", "title": "Commands do not raise", "statement": "If the values of sub annotations are texts (where they are used), no line number ratio is given and the minimum is positive (where line numbers are looked for), and the filters of the complex matcher do not fail, then each command annotates exactly the sources that can be loaded, without any exception and with a result independent of the bounds of the loops; with plain names the result is saved. The fuzzy searches of the code meet the assumption made about the searches. Each of the conditions on options and values is needed.", "quantifier": "every command, options, target annotations, source tree", "why_tests_cant": "all sources, options and annotations", "anchors": ["sciencebeam_trainer_grobid_tools/annotation/simple_matching_annotator.py:SimpleMatchingAnnotator", "sciencebeam_trainer_grobid_tools/core/annotation/matching_annotator.py:MatchingAnnotator", "sciencebeam_trainer_grobid_tools/annotation/annotator.py:annotate_structured_document", "sciencebeam_trainer_grobid_tools/annotation/line_number_annotator.py:TextLineNumberAnnotator"]}
{"id": "C88", "title": "Target annotations of a document", "statement": "Reading the target annotations of an XML document with a mapping: the positions used for sorting are the document order and differ for different elements; every annotation is named by a plain key of the section of the root tag and every sub annotation by a sub field of that key; the flags are those of the options (standalone values never require the next one); without regular expressions the sub annotations are one non-empty text per element found; a field without options has one annotation per element found with a text; values are never an empty text or an empty list; the order is that of the ordering model (C36); reading raises nothing if the options are well-formed, and well-formed field options are needed. Values extracted by a regular expression can contain an empty text, and sub values can be lists.", "quantifier": "every document, mapping, root tag, XPath/regular expression/JSON results", "why_tests_cant": "all documents and mappings", "anchors": ["sciencebeam_trainer_grobid_tools/annotation/target_annotation.py:xml_root_to_target_annotations", "sciencebeam_trainer_grobid_tools/annotation/target_annotation.py:is_wildcard_children_xpaths", "sciencebeam_trainer_grobid_tools/core/annotation/target_annotation.py:extract_sub_annotations", "sciencebeam_trainer_grobid_tools/core/annotation/target_annotation.py:parse_xpaths"]}
{"id": "C89", "title": "Texts of the children of an element", "statement": "For the children, concatenation, range and unmatched text options of a field: a list of sources has one value per source (a fixed value, or the texts of the found elements that have no found child, joined by spaces) and is dropped as a whole if one finds nothing; a concatenation is one value per entry that is not dropped; a range is all numbers from the first to the last, ascending and inclusive, if both are digits, else nothing and no element is used; the texts are those of the found elements not used by these (without children for elements that have found children), the concatenations, the ranges and at most one text of the rest, never twice. With all elements below as children no visible character of the element is lost or repeated. In general a text can be repeated (only direct parents are left out), and digits that are not decimal raise ValueError.", "quantifier": "every document, element, options and XPath results", "why_tests_cant": "all documents and options", "anchors": ["sciencebeam_trainer_grobid_tools/core/annotation/target_annotation.py:extract_children", "sciencebeam_trainer_grobid_tools/core/annotation/target_annotation.py:extract_children_source_list", "sciencebeam_trainer_grobid_tools/core/annotation/target_annotation.py:extract_children_concat", "sciencebeam_trainer_grobid_tools/core/annotation/target_annotation.py:extract_children_range", "sciencebeam_trainer_grobid_tools/core/annotation/target_annotation.py:exclude_parents"]}
{"id": "C90", "title": "Commands from target document to saved source", "statement": "Reading the target annotations and tag configurations from the target document and the (overridden, filtered) XML mapping and running a command with them: target annotations and sub annotations are only those of fields and sub fields that are given in the mapping or overrides and asked for; every tag of the annotated document is one of the source, an asked field, or one of the few tags the command gives itself; with readable options, texts as sub values, plain names and a loadable source the run raises nothing and saves a tree that does not depend on loop bounds.", "quantifier": "every command, mapping, options, target document and source", "why_tests_cant": "all configurations and documents", "anchors": ["sciencebeam_trainer_grobid_tools/auto_annotate_utils.py:get_default_annotators", "sciencebeam_trainer_grobid_tools/auto_annotate_utils.py:AnnotatorConfig", "sciencebeam_trainer_grobid_tools/auto_annotate_utils.py:AbstractAnnotatePipelineFactory", "sciencebeam_trainer_grobid_tools/annotation/target_annotation.py:xml_root_to_target_annotations"]}
{"id": "C91", "title": "Commands on files", "statement": "At the end of a run of a command over sources with distinct base names that are no outputs, with any number of workers in any interleaving: each source is either annotated from its own contents and the target file that the substitution option names, accepted by the checks and saved under its name in the output directory; or annotated, not accepted, and saved in the directory for rejected documents (or nowhere) with the output left alone; or counted as failed with no output written. All other files, targets included, stay as they are. Accepted means: every required field has a target value and every checked field with one value is matched by the tagged text (segmentation: found in the text of its segment). Without shared temporary directories a source fails only if it cannot be read, annotated, checked or saved; sources with readable targets, loadable text, plain names and single checked values never fail; the text of a saved source is that of the source.", "quantifier": "every command, options, files, workers and interleaving", "why_tests_cant": "all files, configurations and schedules", "anchors": ["sciencebeam_trainer_grobid_tools/auto_annotate_utils.py:AbstractAnnotatePipelineFactory", "sciencebeam_trainer_grobid_tools/annotation/annotator.py:annotate_structured_document", "sciencebeam_trainer_grobid_tools/annotation/checks.py:get_target_annotations_from_annotator", "sciencebeam_trainer_grobid_tools/auto_annotate_segmentation.py:AnnotatePipelineFactory"]}
{"id": "C92", "title": "Fixing JATS files", "statement": "At the end of a fix-jats run over sources with distinct outputs that are no sources, with any workers: each source is saved fixed, or cannot be fixed, fails and leaves its output alone; the run raises exactly if a source cannot be fixed. The document is parsed without leading blanks; if that gives a syntax error on a line of the file, the file without leading white space and with every dagger entity as a number is parsed instead and the meta data say so. The saved tree differs from the parsed one only in the references (each one fixed) and in five meta data entries at the end of the first custom-meta-group (or a new first one), which give the number and ids of exactly the references that are written differently. The text is kept around these entries if the references keep theirs. The error line that is reported is the line of the file on which the parser stopped. Sources below the base directory get distinct outputs.", "quantifier": "every file contents, parser result, source list, number of workers and interleaving", "why_tests_cant": "all documents, malformed files and schedules", "anchors": ["sciencebeam_trainer_grobid_tools/fix_jats_xml.py:fix_jats_xml_file", "sciencebeam_trainer_grobid_tools/fix_jats_xml.py:FixJatsProcessor", "sciencebeam_trainer_grobid_tools/fix_jats_xml.py:add_jats_meta_data", "sciencebeam_trainer_grobid_tools/fix_jats_xml.py:get_fix_xml_meta_data_dict", "sciencebeam_trainer_grobid_tools/utils/xml.py:parse_xml_or_get_error_line", "sciencebeam_trainer_grobid_tools/utils/xml.py:auto_download_and_fix_input_file", "sciencebeam_trainer_grobid_tools/utils/xml.py:skip_spaces"]}
{"id": "C93", "title": "Fixing JATS files keeps the sources", "statement": "A fix-jats run changes none of its sources. (False: the assertion compares a source only with its own output. A file is changed only if it is the output of another source; a run on one file never changes it.)", "quantifier": "every source list, base and output directory, file contents, workers and interleaving", "why_tests_cant": "all directory layouts and schedules", "anchors": ["sciencebeam_trainer_grobid_tools/fix_jats_xml.py:FixJatsProcessor"]}
{"id": "C94", "title": "The base directory of a fix-jats run", "statement": "A base directory, a list of files or a single source is enough to start a run. (False: a list in the current directory has no directory part and the constructor raises TypeError. It succeeds exactly with a base directory, a list whose path has a slash, or a source path.)", "quantifier": "every combination of the three options", "why_tests_cant": "all paths", "anchors": ["sciencebeam_trainer_grobid_tools/fix_jats_xml.py:FixJatsProcessor"]}
{"id": "C95", "title": "What a command line says", "statement": "The command lines that a command accepts are those made of its options written in full or by a beginning that no other option has, with the value joined by = or in the next word (if that is not taken for an option) and accepted by the conversion, with all required options given. Each has one reading, and the occurrences of options are those of the reading. Written in full and joined, every list of admissible options is read back. (A value in the next word: false for a list of fields that starts with a minus sign.)", "quantifier": "every sequence of words, every set of well-formed declarations, in particular those of all eight commands", "why_tests_cant": "all sequences of words and abbreviations", "anchors": ["sciencebeam_trainer_grobid_tools/auto_annotate_utils.py:add_annotation_pipeline_arguments", "sciencebeam_trainer_grobid_tools/auto_annotate_utils.py:add_fields_argument", "sciencebeam_trainer_grobid_tools/auto_annotate_segmentation.py:add_main_args", "sciencebeam_trainer_grobid_tools/auto_annotate_fulltext.py:add_main_args", "sciencebeam_trainer_grobid_tools/auto_annotate_reference.py:add_main_args"]}
{"id": "C96", "title": "What the options of a command are set to", "statement": "For an accepted command line every option that the pipeline uses is the conversion of the value that is given last, or its documented default; of two options for one setting the last one counts; fields are the defaults, the items listed, or the defaults changed by plus and minus items; the three required paths are what is given last.", "quantifier": "every accepted command line of every command", "why_tests_cant": "all combinations, orders and repetitions of options", "anchors": ["sciencebeam_trainer_grobid_tools/auto_annotate_utils.py:add_annotation_pipeline_arguments", "sciencebeam_trainer_grobid_tools/auto_annotate_utils.py:AbstractAnnotatePipelineFactory", "sciencebeam_trainer_grobid_tools/utils/string.py:plus_minus_comma_separated_str_to_list", "sciencebeam_trainer_grobid_tools/auto_annotate_utils.py:add_sub_fields_argument"]}
{"id": "C97", "title": "What a configuration file says", "statement": "A text is accepted by the configuration reader exactly if it consists of section headers, options (a name and a value after the first = or :, continued by deeper indented lines), comments and empty lines, without a section or option given twice; sections and options are read in order with lower case names, values being the lines joined without trailing empty ones.", "quantifier": "every text", "why_tests_cant": "all texts: any mixture of comments, empty and indented lines", "anchors": ["sciencebeam_trainer_grobid_tools/core/annotation/target_annotation.py:parse_xml_mapping", "sciencebeam_trainer_grobid_tools/annotation/segmentation_annotator.py:parse_segmentation_config"]}
{"id": "C98", "title": "Which mapping and segmentation a configuration file gives", "statement": "The XML mapping is, per section, the options of the section after those of the default section, with every reference %(name)s replaced (recursively, at most ten levels) and %% by %; the segmentation is read from the section tags in this way, the two numbers from the section config with their defaults. (That a segment has the name written in the file: false for upper case letters.)", "quantifier": "every text", "why_tests_cant": "all texts and all nestings of references", "anchors": ["sciencebeam_trainer_grobid_tools/core/annotation/target_annotation.py:parse_xml_mapping", "sciencebeam_trainer_grobid_tools/annotation/segmentation_annotator.py:parse_segmentation_config", "sciencebeam_trainer_grobid_tools/annotation/segmentation_annotator.py:SegmentationConfig"]}
{"id": "C99", "title": "The configuration that is shipped fits the commands", "statement": "The XML mapping that is shipped is read; each of its options is a field, a sub field or an option that the reader knows; every field that a command annotates by default has an expression, and a path in the documents it saves, as have its sub fields; every default field of the segmentation is in exactly one segment, and with this mapping every document that can be annotated can be saved. (Every segment has a path: false for listBibl, whose name is read in lower case.)", "quantifier": "every command, every default field, every character class that agrees with ASCII; every document for saving", "why_tests_cant": "all fields, sub fields and character classes; documents are unbounded", "anchors": ["sciencebeam_trainer_grobid_tools/core/annotation/target_annotation.py:parse_xml_mapping", "sciencebeam_trainer_grobid_tools/annotation/segmentation_annotator.py:parse_segmentation_config", "sciencebeam_trainer_grobid_tools/core/annotation/target_annotation.py:XmlMappingSuffix", "sciencebeam_trainer_grobid_tools/auto_annotate_utils.py:get_xml_mapping_and_fields"]}
{"id": "C100", "title": "A command as a program: from the words of the command line to the files", "statement": "A command starts a local run, a Beam run, nothing or stops exactly as its words, the configuration files and the files it finds say. A local run always ends; then every source that was left to do is saved, saved elsewhere after failing the checks, or has failed without a trace; with --resume finished sources are untouched, as is every other file; the program fails exactly if a source failed and --skip-errors was not given. Two runs leave the same files if no threads share a temporary directory. With the shipped configuration and readable articles every source is saved. Of the files of a document, as they are or compressed, the pattern of a command describes those of its own model only.", "quantifier": "every command, command line, set of files, interleaving of the workers", "why_tests_cant": "all command lines, files and interleavings", "anchors": ["sciencebeam_trainer_grobid_tools/auto_annotate_header.py:main", "sciencebeam_trainer_grobid_tools/auto_annotate_utils.py:process_annotation_pipeline_arguments", "sciencebeam_trainer_grobid_tools/auto_annotate_utils.py:AbstractAnnotatePipelineFactory", "sciencebeam_trainer_grobid_tools/auto_annotate_utils.py:get_default_config_path", "sciencebeam_trainer_grobid_tools/auto_annotate_segmentation.py:AnnotatePipelineFactory"]}
{"id": "C101", "title": "What a search for a regular expression finds", "statement": "A search finds an occurrence of the pattern if there is one, no occurrence starts before it, and of the readings at that place it is the first in the order of preference (left alternative first, more iterations first, fewer if lazy); the groups are the parts of that reading. A match is the same at the start of the text; all matches are occurrences in order that overlap every non empty occurrence.", "quantifier": "every pattern of the supported syntax, every text, every character class", "why_tests_cant": "all patterns and texts: backtracking has unboundedly many ways", "anchors": ["sciencebeam_trainer_grobid_tools/fix_jats_xml.py:find_re_pattern_start_end", "sciencebeam_trainer_grobid_tools/fix_jats_xml.py:truncate_doi_at_known_tokens", "sciencebeam_trainer_grobid_tools/fix_jats_xml.py:find_doi_ext_link_start_end"]}
{"id": "C102", "title": "The identifiers and titles the code reads are those of its regular expressions", "statement": "All patterns of the reference fixing compile; the first DOI, the end of a title and the first stop word that the model of the fixing uses are exactly what the search for the patterns as written gives, for any set of stop words in any order.", "quantifier": "every text, every non empty set of non empty stop words, every character class with the stated ASCII members", "why_tests_cant": "all texts; the order of the set of stop words differs between runs of Python", "anchors": ["sciencebeam_trainer_grobid_tools/fix_jats_xml.py:find_re_pattern_start_end", "sciencebeam_trainer_grobid_tools/fix_jats_xml.py:truncate_doi_at_known_tokens", "sciencebeam_trainer_grobid_tools/fix_jats_xml.py:find_doi_start_end", "sciencebeam_trainer_grobid_tools/fix_jats_xml.py:find_article_title_start_end"]}
{"id": "C103", "title": "What the searches for identifiers find", "statement": "For each pattern of the reference fixing (PMID, PMID in a PMID element, WOS, PMCID, PII, text before [pii], address in front of DOIs, bracketed DOI of a link) the search finds the first place that fits a plain description of the identifier, as long as the description says, and nothing only if no place fits. Claims that are false of the code: a PII starts with S or B; a PII has no white space; the address has a dot.", "quantifier": "every text, every character class in which digits are word characters and white space is not", "why_tests_cant": "all texts; the patterns backtrack over optional parts and nested repetitions", "anchors": ["sciencebeam_trainer_grobid_tools/fix_jats_xml.py:find_pmid_start_end", "sciencebeam_trainer_grobid_tools/fix_jats_xml.py:find_pmid_fix_start_end", "sciencebeam_trainer_grobid_tools/fix_jats_xml.py:find_pmcid_start_end", "sciencebeam_trainer_grobid_tools/fix_jats_xml.py:find_wos_start_end", "sciencebeam_trainer_grobid_tools/fix_jats_xml.py:find_pii_valid_start_end", "sciencebeam_trainer_grobid_tools/fix_jats_xml.py:find_pii_other_start_end", "sciencebeam_trainer_grobid_tools/fix_jats_xml.py:find_doi_url_prefix_valid_start_end", "sciencebeam_trainer_grobid_tools/fix_jats_xml.py:find_doi_ext_link_start_end"]}
{"id": "C104", "title": "Fixed references have well-formed identifiers", "statement": "If no pub-id of a reference has elements inside, then after fix_reference (with the patterns as written) no pub-id has elements inside, known types are written in lower case, and every text of a pub-id is of its type: a DOI starts with 10., four or more digits, parts and a slash; a PMID has one to ten digits; a PMCID is PMC in any case with digits; a PII is a valid PII. The same for all references of a document, whose number stays. The text of simple references stays. Claims that are false of the code: the same with elements inside pub-ids; a second run changes nothing; a title that begins with words in double quotes keeps them.", "quantifier": "every reference tree and every document, every character classification meeting the stated facts about Python's", "why_tests_cant": "all trees, with any number of identifiers in any order; the tests try one identifier at a time", "anchors": ["sciencebeam_trainer_grobid_tools/fix_jats_xml.py:fix_reference", "sciencebeam_trainer_grobid_tools/fix_jats_xml.py:fix_jats_xml_node", "sciencebeam_trainer_grobid_tools/fix_jats_xml.py:change_annotation_to_matching_text", "sciencebeam_trainer_grobid_tools/fix_jats_xml.py:convert_known_pub_id_type_to_lower_case", "sciencebeam_trainer_grobid_tools/fix_jats_xml.py:add_annotation_to_reference_element_if_matching"]}
{"id": "C105", "title": "Short patterns mean what the models write out", "statement": "Removing white space, splitting at non-word characters, page number and page header candidates, the word tests at the ends of texts, the dot after a reference, placeholders in configured patterns, splitting of concatenated URLs, tag expressions (name, optional attribute and value) and namespace prefixes (addresses without backslash) computed with the regular expressions as written in the code are, for every text, the functions written out in the models. With the substitution of the Makefile a name stem.header.tei.xml with a tail without 'h' becomes stem.xml with the same tail, and a name without the suffix stays. Claims that are false of the code: an address with a backslash is inserted as it is; only the suffix with dots is replaced.", "quantifier": "every text, every classification of characters in which a line feed is white space, no digit and no word character", "why_tests_cant": "all texts, including those with line feeds, several brackets, quotes or overlapping prefixes; backtracking makes the meaning of a pattern non-obvious", "anchors": ["sciencebeam_trainer_grobid_tools/structured_document/grobid_training_tei.py:_parse_tag_expression", "sciencebeam_trainer_grobid_tools/structured_document/grobid_training_tei.py:_tokenize_text", "sciencebeam_trainer_grobid_tools/annotation/simple_matching_annotator.py:split_and_join_with_space", "sciencebeam_trainer_grobid_tools/annotation/simple_matching_annotator.py:resolve_regex_placeholders", "sciencebeam_trainer_grobid_tools/annotation/segmentation_annotator.py:is_valid_page_number_candidate", "sciencebeam_trainer_grobid_tools/annotation/segmentation_annotator.py:is_valid_page_header_candidate", "sciencebeam_trainer_grobid_tools/annotation/target_annotation.py:is_ends_with_word", "sciencebeam_trainer_grobid_tools/annotation/target_annotation.py:is_starts_with_word", "sciencebeam_trainer_grobid_tools/auto_annotate_utils.py:_resolve_tag_expression_namespace", "sciencebeam_trainer_grobid_tools/fix_jats_xml.py:get_full_cleaned_url", "sciencebeam_trainer_grobid_tools/fix_jats_xml.py:split_url", "sciencebeam_trainer_grobid_tools/annotation/reference_annotator.py:get_suffix_extended_token_tags", "sciencebeam_trainer_grobid_tools/utils/regex.py:regex_change_name"]}
{"id": "C106", "title": "Prefixes of identifiers, abstracts and affiliations are what the configured patterns say", "statement": "With the prefix patterns of the reference command, an untagged token before an identifier is tagged exactly if it ends after the start of a name at the end of the text before the identifier: the name starts at the start of a word, is 'DOI' or 'PII' in any case for these types and a word of two or more letters for the other types, and is followed by nothing, a colon or white space and a colon. With the shipped configuration the range of an abstract is extended to the heading 'abstract' or 'summary' if only white space is in between, and that of an affiliation to the first place from which on there are only its label, white space, full stops and hyphens, white space; no other field has a prefix pattern; all these patterns compile, for every label. A label with a character that the normalised text does not have is never found. Claims that are false of the code: only names of identifiers are included; labels are found in any case; labels are whole words.", "quantifier": "every text, every tagging and tokenisation, every label, every classification of characters in which letters are word characters and white space, colon and line feed are not", "why_tests_cant": "all texts and labels: labels are inserted into the pattern as text, so every special character matters, and the leftmost of many possible starts is taken", "anchors": ["sciencebeam_trainer_grobid_tools/annotation/reference_annotator.py:get_prefix_extended_token_tags", "sciencebeam_trainer_grobid_tools/annotation/simple_matching_annotator.py:apply_match_prefix_regex_to_index_range", "sciencebeam_trainer_grobid_tools/annotation/simple_matching_annotator.py:get_sub_tag_placeholders", "sciencebeam_trainer_grobid_tools/annotation/simple_matching_annotator.py:resolve_regex_placeholders", "sciencebeam_trainer_grobid_tools/annotation/simple_matching_annotator.py:parse_regex", "sciencebeam_trainer_grobid_tools/auto_annotate_reference.py:_get_default_reference_annotator_config"]}
{"id": "C107", "title": "Short values are found exactly where they are whole words", "statement": "The blocks that Python's difflib reports for two lists of words (no junk, no automatic junk) are runs of equal words in the order of both lists; no two of them touch, and no further pair of equal words is in line with all of them; each longest match is the longest one, the first of those in the first list, and the first of those in the second list. If the words of a value follow each other in the text, the first such place is the only block. Hence a value for which it or the text is shorter than the threshold for exact matches and which is in the text as whole words (at both of its ends there is a separator, or the end of the text) is found at its first such place, with any threshold up to 1; a short value of one word is found only there, and searching all its matches finds exactly the places where it is a whole word, in order. It is false that a short value of several parts is found only as whole words: a dot behind a letter does not count.", "quantifier": "every two lists of words and ranges of them; every text, value, start, threshold in (0, 1], junk function, number of chunks", "why_tests_cant": "all texts: the blocks come from a recursive search with sorting and merging, and places, repetitions and separators can be combined without limit", "anchors": ["sciencebeam_trainer_grobid_tools/utils/fuzzy.py:WordSequenceMatcher", "sciencebeam_trainer_grobid_tools/utils/fuzzy.py:get_matching_blocks", "sciencebeam_trainer_grobid_tools/utils/fuzzy.py:split_with_offset", "sciencebeam_trainer_grobid_tools/utils/fuzzy.py:fuzzy_search_chunks", "sciencebeam_trainer_grobid_tools/utils/fuzzy.py:iter_fuzzy_search_all", "sciencebeam_trainer_grobid_tools/utils/fuzzy.py:fuzzy_search_index_range_chunks"]}
{"id": "C108", "title": "Short one-word values tag exactly the tokens of their first whole-word place", "statement": "With the searches the commands use (difflib on words for values shorter than 5), a field whose value is one short word is annotated by the simple matcher as follows, in any state of the annotation. If the value is a whole word of the text of the untagged tokens searched first (line ends count as separators), exactly the tokens with a character in the first such place get the tags of the field (the first one b-, the others i-), and there is such a token; all other tags, sub tags and texts stay. Otherwise, if the block of the field has not been found yet, the same holds for the text of all untagged tokens. Otherwise nothing changes and the field is left over. For a document with a single field this describes the result of the whole annotation. A short sub field of one word gets its first whole-word place none of whose tokens has a sub tag; if there is none, nothing is tagged.", "quantifier": "every document, state of the annotation, field and value of one short word, classification of characters in which word characters are no separators, threshold in (0, 1], number of chunks, configuration without prefix pattern and alternative spellings", "why_tests_cant": "all documents: words, part words, repetitions, tokens without space between them and tags given earlier can be combined without limit", "anchors": ["sciencebeam_trainer_grobid_tools/annotation/simple_matching_annotator.py:get_fuzzy_matching_index_range_chunks", "sciencebeam_trainer_grobid_tools/annotation/simple_matching_annotator.py:update_annotation_for_index_range", "sciencebeam_trainer_grobid_tools/annotation/simple_matching_annotator.py:process_sub_annotations", "sciencebeam_trainer_grobid_tools/annotation/simple_matching_annotator.py:process_target_annotations", "sciencebeam_trainer_grobid_tools/annotation/simple_matching_annotator.py:iter_matching_index_ranges", "sciencebeam_trainer_grobid_tools/annotation/matching_utils.py:PendingSequences", "sciencebeam_trainer_grobid_tools/utils/fuzzy.py:iter_fuzzy_search_all_index_ranges", "sciencebeam_trainer_grobid_tools/utils/fuzzy.py:fuzzy_search_index_range_chunks"]}
{"id": "C109", "title": "What fix_jats_xml does is decided by its command line", "statement": "Run as a program, fix_jats_xml reads its options as declared; the base directory is the one given, otherwise the directory of the list of files if its path has one, otherwise that of the source path; the sources are those in the named column of the list up to the limit, otherwise the one named, otherwise those found below the base directory with the pattern; it stops with an error and without changing a file if the command line, the base directory or the list cannot be read, or if there are sources and fewer than one worker is asked for (in particular without a base path, a list in a directory and a source path); it does nothing if there are no sources; otherwise it runs as many workers as asked for, at most one per source. If the sources are different files below the base directory and the output directory is neither below it nor above it, the program ends; every source that can be fixed has its output below the output path as the source is below the base path, nothing else has changed, and it ends with an error exactly if a source could not be fixed.", "quantifier": "every command line, disk, source list, fixing function, schedule of the workers", "why_tests_cant": "all command lines and all orders of the workers", "anchors": ["sciencebeam_trainer_grobid_tools/fix_jats_xml.py:parse_args", "sciencebeam_trainer_grobid_tools/fix_jats_xml.py:run", "sciencebeam_trainer_grobid_tools/fix_jats_xml.py:fix_jats_xml_file", "sciencebeam_trainer_grobid_tools/fix_jats_xml.py:main"]}
{"id": "C110", "title": "What download_source_files does is decided by its command line", "statement": "Run as a program, download_source_files reads its options as declared; documents and targets are described by their own options (base path, list, column, output path and pattern, each with the stated default), the limit applies to both lists. It stops with an error and without changing a file if an option or a list cannot be read, the lists have different lengths, no row has both of its files, or fewer than one thread is asked for. Otherwise, if making a path absolute twice changes nothing, no output is written twice and no output is a source, the program ends without an error, the two outputs of every row of which both files exist are named by the patterns and hold the contents of these files, and nothing else has changed. It is false that this holds if the library joins every relative path: a relative base path is then put before a file twice.", "quantifier": "every command line, disk, file list, schedule of the threads", "why_tests_cant": "all command lines and lists, all orders of the threads", "anchors": ["sciencebeam_trainer_grobid_tools/download_source_files.py:parse_args", "sciencebeam_trainer_grobid_tools/download_source_files.py:main", "sciencebeam_trainer_grobid_tools/download_source_files.py:run"]}
{"id": "C111", "title": "The base path of documents defaults to the directory of their list, as the help says", "statement": "If no document base path is given, the files of the documents are those of the list below the directory of the list. False: without a base path the paths in the list are used as they are.", "quantifier": "every command line without a document base path", "why_tests_cant": "the claim is about every list; the tests give a base path", "anchors": ["sciencebeam_trainer_grobid_tools/download_source_files.py:_add_file_list_args"]}
{"id": "C112", "title": "Tags of different scope or level never interfere", "statement": "The attributes under which tags are stored are the same exactly if kind (tag or preserved tag), scope and level are the same (no scope and an empty scope are the same; levels are numbers, and no level is level 0). Hence setting or removing a tag is seen by reading the same tag and by no other; the tags by scope are exactly the tags without level of the scopes; every token keeps one value per attribute. All operations of the annotators and of the construction of a document (set a tag with and without clearing preserved tags, map tags, preserve, reset) act on the attributes as the models with four tags per token say, in any order and number. Setting a tag in a scope leaves all tags without scope, but gives up preserved tags without scope as if it had been set without scope. False of the code: this leaves what is saved; level 0 clears the same as no level; levels that are texts never collide; simple documents list only scopes with a tag.", "quantifier": "every token, scope, number as level, value; every sequence of operations on every document", "why_tests_cant": "all scopes and levels: names are concatenated texts, so collisions depend on every character; all sequences of operations", "anchors": ["sciencebeam_trainer_grobid_tools/core/structured_document/__init__.py:get_scoped_attrib_name", "sciencebeam_trainer_grobid_tools/core/structured_document/__init__.py:get_attrib_by_scope", "sciencebeam_trainer_grobid_tools/core/structured_document/__init__.py:SimpleToken", "sciencebeam_trainer_grobid_tools/structured_document/grobid_training_tei.py:set_tag", "sciencebeam_trainer_grobid_tools/structured_document/grobid_training_tei.py:set_tag_only", "sciencebeam_trainer_grobid_tools/structured_document/grobid_training_tei.py:TeiText"]}
{"id": "C113", "title": "Merging documents moves the tags token by token", "statement": "Merging a document with another one goes through the tokens of both in order, over pages and lines, as far as both have tokens. If the texts of all these pairs are equal, the result has the same pages, lines and texts; every token with a partner is what the merge function makes of the pair, and the others stay. Otherwise it is an AssertionError. With merge_token_tag a token gets the tag its partner has in the source scope as its tag in the target scope, if there is one, and nothing else of it changes. False: documents that can be merged have the same tokens (the longer one is cut off silently).", "quantifier": "every two documents, every merge function, source and target scope", "why_tests_cant": "all documents and layouts of pages and lines", "anchors": ["sciencebeam_trainer_grobid_tools/core/structured_document/__init__.py:merge_with", "sciencebeam_trainer_grobid_tools/core/structured_document/__init__.py:merge_token_tag", "sciencebeam_trainer_grobid_tools/core/structured_document/__init__.py:iter_all_tokens"]}
{"id": "C114", "title": "XPath expressions find what they stand for, once, in document order", "statement": "For the expressions of the supported subset of XPath 1.0 (child, self, ancestor, //, names, *, ., unions, paths after parentheses, predicates of attributes, single steps, not, and, or), every document and every context element: the nodes found are exactly those to which a walk along the axes leads whose steps meet their tests and predicates; they are found once and in document order. For expressions about names and attributes of the elements on the way, an element is found exactly if the names and attributes from the root element down to it match the expression.", "quantifier": "all documents, context elements and expressions of the subset", "why_tests_cant": "Tests evaluate a few expressions on a few documents; this is about all trees and all expressions, including nesting to any depth and duplicates by several ways.", "anchors": ["sciencebeam_trainer_grobid_tools/core/annotation/target_annotation.py:match_xpaths", "sciencebeam_trainer_grobid_tools/annotation/target_annotation.py:match_xpaths", "sciencebeam_trainer_grobid_tools/core/annotation/target_annotation.py:extract_children_source_list"]}
{"id": "C115", "title": "What the shipped mapping finds in any document", "statement": "For each of the 36 fields of config/xml-mapping.conf there is a condition on the names (and an attribute) of the elements from the root element to an element, such that in every document the field finds exactly the elements with that condition, each once; the table has all fields of the file. The same for every expression of its .children, .ignore and .sub options, started at any element.", "quantifier": "all documents, all fields and inner expressions of the shipped mapping", "why_tests_cant": "The file is only used by end-to-end tests with a few documents; which elements are found in documents of other shapes (comments, nesting, sections in acknowledgments, attributes) is not seen by them.", "anchors": ["sciencebeam_trainer_grobid_tools/annotation/target_annotation.py:xml_root_to_target_annotations", "sciencebeam_trainer_grobid_tools/core/annotation/target_annotation.py:parse_xpaths", "sciencebeam_trainer_grobid_tools/core/annotation/target_annotation.py:match_xpaths"]}
{"id": "C116", "title": "Which fields of the shipped mapping find the same element", "statement": "In every document: the title of a section in the back is found by exactly one of back_section_title and acknowledgment_section_title; a paragraph in the back is found by acknowledgment_section_paragraph exactly if it is inside of acknowledgments, and by back_section_paragraph exactly if it is not and it is a child of a section or in no section; no field of the body finds an element that a field of the back (or of the references) finds; two default fields of the fulltext command find the same element only if they are section_paragraph and boxed_text_paragraph and it is a paragraph of a section in a boxed text. False: every paragraph of the back is found by one of the two; body and acknowledgment fields find different elements; section_paragraph finds nothing in the abstract; all figures in a paragraph are ignored; keywords of groups of another type are left out; the subject of a group of the type display-channel is found.", "quantifier": "all documents", "why_tests_cant": "It is about all shapes of documents, and about pairs of fields that no test evaluates together.", "anchors": ["sciencebeam_trainer_grobid_tools/annotation/target_annotation.py:xml_root_to_target_annotations", "sciencebeam_trainer_grobid_tools/core/annotation/target_annotation.py:parse_xpaths", "sciencebeam_trainer_grobid_tools/core/annotation/target_annotation.py:extract_children"]}
{"id": "C117", "title": "JSON options are read by the grammar of JSON, and mean what their last members say", "statement": "A text is read as a value exactly if it spells that value by the grammar of JSON (white space anywhere between tokens, escapes, numbers without leading zeros, no trailing commas), and a text spells at most one value. The option .children.concat is read exactly if it is a list of lists of objects, the option .children.range exactly if it is a list of objects with the objects min and max; each source has the texts of its last members xpath and value, absent or null members are none, and a range stands alone exactly if the value of standalone is not falsy.", "quantifier": "all texts and all JSON values (any nesting)", "why_tests_cant": "Tests use a handful of well formed options; this is about every text, including malformed ones and members that are given twice.", "anchors": ["sciencebeam_trainer_grobid_tools/core/annotation/target_annotation.py:parse_json_with_default", "sciencebeam_trainer_grobid_tools/core/annotation/target_annotation.py:extract_children_concat", "sciencebeam_trainer_grobid_tools/core/annotation/target_annotation.py:extract_children_range", "sciencebeam_trainer_grobid_tools/core/annotation/target_annotation.py:extract_children_source_list"]}
{"id": "C118", "title": "The shipped mapping can be read for every article, so runs never stop because of it", "statement": "The .children.concat and .children.range options of config/xml-mapping.conf are those of a table of ten fields and one range, each with one list of sources; for every document all expressions of all fields of the shipped mapping, its JSON options and its regular expressions can be read and evaluated; so with the shipped configuration every annotation command saves every source it can load whatever article its target is, without assumptions about XPath, JSON or regular expressions other than that they are as modelled.", "quantifier": "all target documents, sources, commands and options without overrides", "why_tests_cant": "A run of the tests evaluates the expressions that its document happens to reach; that no expression or option of the file can fail for any document is not seen by them.", "anchors": ["sciencebeam_trainer_grobid_tools/annotation/target_annotation.py:xml_root_to_target_annotations", "sciencebeam_trainer_grobid_tools/core/annotation/target_annotation.py:parse_json_with_default", "sciencebeam_trainer_grobid_tools/core/annotation/target_annotation.py:extract_children"]}
{"id": "C119", "title": "Figures, tables, boxes and section titles: label and caption of every such element, once", "statement": "For the fields section_title, boxed_text_title, figure, body_figure, back_figure, table, body_table and back_table of config/xml-mapping.conf, the target annotations are exactly one for each element of the field (in document order, at the paths of C115) that has a text to match, and none for the others: if it has both label children and caption (title) children, the text is the texts of the labels, a space and those of the captions, all as children of the element itself and never of a nested one; otherwise it is the texts of the captions and labels it has; the sub annotations are the texts of the children that the .sub. options name. This holds for the mapping as any annotation command reduces it to the fields and sub fields asked for.", "quantifier": "all target documents with the root article, all fields and sub fields asked for", "why_tests_cant": "Tests use one figure with a label and a caption; this is about every document, with nested figures, missing labels and comments between.", "anchors": ["sciencebeam_trainer_grobid_tools/core/annotation/target_annotation.py:extract_children_concat", "sciencebeam_trainer_grobid_tools/core/annotation/target_annotation.py:extract_children_source_list", "sciencebeam_trainer_grobid_tools/core/annotation/target_annotation.py:extract_children", "sciencebeam_trainer_grobid_tools/annotation/target_annotation.py:xml_root_to_target_annotations", "sciencebeam_trainer_grobid_tools/core/annotation/target_annotation.py:extract_sub_annotations"]}
{"id": "C120", "title": "Annotations of a field are in document order", "statement": "If the expressions of a field find no element twice, then the target annotations of the field are the annotations of the elements found, in document order of the elements, those of one element following each other, whatever the order of the expressions, the other fields and the priorities.", "quantifier": "all mappings, documents and fields", "why_tests_cant": "Order is only seen for the documents tried; ties and priorities of other fields interact with the sort.", "anchors": ["sciencebeam_trainer_grobid_tools/annotation/target_annotation.py:xml_root_to_target_annotations"]}
{"id": "C121", "title": "Titles, paragraphs and other texts: the text of every such element outside what is ignored, once", "statement": "For the 22 fields of config/xml-mapping.conf that take the text of an element (title, abstract, section_paragraph, boxed_text_paragraph, list_item and others), the target annotations are exactly one for each element of the field (in document order, at the paths of C115) whose text has something left: the text is all character data inside the element, in order, except what is inside the elements that the .ignore option names (comments and their tails kept as the code keeps them), with a space put between two pieces where one ends and the next starts with a word character, then stripped; the sub annotations are the texts of the elements that the .sub. options name. This holds for the mapping as any annotation command reduces it.", "quantifier": "all target documents with the root article, all fields and sub fields asked for", "why_tests_cant": "Tests use single paragraphs with one ignored element; this is about every nesting of ignored elements, texts and tails.", "anchors": ["sciencebeam_trainer_grobid_tools/annotation/target_annotation.py:xml_root_to_target_annotations", "sciencebeam_trainer_grobid_tools/core/annotation/target_annotation.py:extract_sub_annotations"]}
{"id": "C122", "title": "Keywords, lists and page numbers", "statement": "For config/xml-mapping.conf: every keyword group of the article gives one annotation, the texts of its author keywords joined by spaces, unless that is empty; every list gives one annotation with the texts of its children other than list items, and list.ignore has no effect on it; the article gives the page numbers from first to last page, each as an annotation of its own and in increasing order, if both are digits, otherwise one annotation with the pages there are. This holds for the mapping as any annotation command reduces it.", "quantifier": "all target documents with the root article, all fields asked for", "why_tests_cant": "Tests try one range and one concatenation; that .ignore is not looked at when .children is given is not tested at all.", "anchors": ["sciencebeam_trainer_grobid_tools/core/annotation/target_annotation.py:extract_children_range", "sciencebeam_trainer_grobid_tools/core/annotation/target_annotation.py:extract_children_concat", "sciencebeam_trainer_grobid_tools/core/annotation/target_annotation.py:extract_children", "sciencebeam_trainer_grobid_tools/annotation/target_annotation.py:xml_root_to_target_annotations"]}
{"id": "C123", "title": "XPath expressions are read as their grammar says", "statement": "An expression of the mapping is read as a location path, union, step or predicate exactly if its text is made of the words of XPath (names and slashes as long as possible) in the order of the grammar of the modelled part of XPath 1.0, and it is read as that grammar groups it: `and` before `or`, a predicate to its own step, `//` as a step of its own, the rest after parentheses starting from what they find. The grammar gives no text two readings.", "quantifier": "all texts", "why_tests_cant": "Only the expressions of one mapping file are ever tried; nesting and spacing are unbounded.", "anchors": ["sciencebeam_trainer_grobid_tools/core/annotation/target_annotation.py:match_xpaths", "sciencebeam_trainer_grobid_tools/annotation/target_annotation.py:match_xpaths"]}
{"id": "C124", "title": "Authors, affiliations and references: the texts of all elements inside", "statement": "For the fields author, author_aff and reference of config/xml-mapping.conf there is at most one annotation for each element of the field (in document order, at the paths of C115). If there is text beside elements or comments anywhere inside the element, its value is the whole text of the element as for a paragraph (C121); otherwise its values are the texts, in no particular order, of the elements inside that contain no other elements - for references, first and last pages are taken out and put together with a hyphen if there are both, and for affiliations a text left over is added unless it is there already. There is no annotation if nothing is left. The sub annotations are the texts of the elements that the .sub. options name.", "quantifier": "all target documents with the root article, all fields and sub fields asked for", "why_tests_cant": "The two ways of reading an element are chosen by its content at any depth; tests use one or two levels.", "anchors": ["sciencebeam_trainer_grobid_tools/annotation/target_annotation.py:contains_raw_text", "sciencebeam_trainer_grobid_tools/annotation/target_annotation.py:is_wildcard_children_xpaths", "sciencebeam_trainer_grobid_tools/annotation/target_annotation.py:get_raw_text_content", "sciencebeam_trainer_grobid_tools/core/annotation/target_annotation.py:extract_children", "sciencebeam_trainer_grobid_tools/core/annotation/target_annotation.py:extract_children_concat", "sciencebeam_trainer_grobid_tools/annotation/target_annotation.py:xml_root_to_target_annotations"]}
{"id": "C125", "title": "The order of all target annotations", "statement": "The target annotations of a document are ordered by the priority of their field (highest first), then in document order of the elements they come from, then, for one element, its text before the numbered values and these by number, then in the order of the fields in the mapping. With config/xml-mapping.conf, as any command reduces it, every annotation of an article belongs to one of its 36 fields (one asked for, if fields are given) and comes from an element at the place of that field, and figures and tables come before everything else.", "quantifier": "all mappings and documents; all articles and fields asked for with the mapping of the repository", "why_tests_cant": "The sort runs over the annotations of all fields at once; tests look at one or two fields.", "anchors": ["sciencebeam_trainer_grobid_tools/annotation/target_annotation.py:xml_root_to_target_annotations"]}
{"id": "C126", "title": "Match detail reports change nothing", "statement": "Asking for a match detail report (--debug-match) changes nothing of what the complex matcher finds and never makes it fail, as long as the blocks that the text matching returns fit the two texts. The rows are numbered one after the other. The rows of the search for one text start at 0, each starts where the one before stopped, the part of the text before and from the start are the whole text, the search ends with the row that reaches the end of the text or accepts a short match, a row is accepted exactly if something of the choice was found and the filter accepts the choice, or the choice with the next one, and a regular accepted row goes on after the white space behind what was found; the accepted rows report just the choices with matches (for a bonding list with at most one match nothing is returned although the row says accepted).", "quantifier": "all texts, choices, documents, filters, matching functions with blocks that fit", "why_tests_cant": "The reporter is not covered by tests; that showing a match computes ratios which could raise is only visible with a reporter.", "anchors": ["sciencebeam_trainer_grobid_tools/core/annotation/matching_annotator.py:_do_find_next_best_matches", "sciencebeam_trainer_grobid_tools/core/annotation/matching_annotator.py:CsvMatchDetailReporter", "sciencebeam_trainer_grobid_tools/core/annotation/matching_annotator.py:find_next_best_matches", "sciencebeam_trainer_grobid_tools/core/annotation/fuzzy_match.py:detailed_str"]}
{"id": "C127", "title": "Where XML files are read from", "statement": "Whether an XML file is named by a local path, by the URL of a remote file or given by a function that opens it, exactly its content is parsed (repaired first if asked for; for articles: repaired only if the first try fails with a malformed line), and a local file is read in place. A remote URL whose last part is no file name, a missing file, an empty name and a remote file that cannot be opened each give their error. Afterwards, with or without error, all local files are as before: downloads and repaired copies lie in new temporary directories that are removed.", "quantifier": "all sources, local files, remote files, temporary directories that are new, parsers, both settings of fix_xml", "why_tests_cant": "Tests read a few files; that nested temporary copies never collide with or leave behind files is a statement about all names and file systems.", "anchors": ["sciencebeam_trainer_grobid_tools/utils/io.py:auto_download_input_file", "sciencebeam_trainer_grobid_tools/utils/xml.py:auto_download_and_fix_input_file", "sciencebeam_trainer_grobid_tools/utils/xml.py:parse_xml_or_get_error_line", "sciencebeam_trainer_grobid_tools/fix_jats_xml.py:fix_jats_xml_file"]}
{"id": "C128", "title": "Mark-up repair of texts", "statement": "A text is read exactly if it is plain mark-up (a sequence of texts, tags, comments and processing instructions), and the calls of the parser are those of its pieces. Repairing plain mark-up that is no valid XML always succeeds; the result is well nested and has the start tags, with their attributes and with names in small letters, and the texts of the input, in order. Unless there are script or style elements, the result is plain mark-up again and repairing it again changes nothing. Names with capital letters, such as persName, are lost.", "quantifier": "all texts; all lists of pieces; all ways of reading character references", "why_tests_cant": "Tests repair a few broken documents; that nothing is lost or changed twice is a statement about all texts, however broken.", "anchors": ["sciencebeam_trainer_grobid_tools/utils/xml.py:FixingHtmlParser", "sciencebeam_trainer_grobid_tools/utils/xml.py:get_fixed_xml_str"]}
{"id": "C129", "title": "Regular expressions are read as their grammar says", "statement": "A text is accepted as a regular expression exactly if it is derived by the grammar of regular expressions, and the expression built is the one of the derivation; the grammar is unambiguous. Groups are numbered by where they open, from one on without gaps. A replacement template is accepted exactly if it is derived by the grammar of templates, with references to existing groups only, and a replacement uses what the two grammars give.", "quantifier": "all texts; all patterns and templates; all classes of characters", "why_tests_cant": "Tests use the few patterns that are shipped; users give their own ones in the configuration and for file names, and which of them are accepted and what they mean is a statement about all texts.", "anchors": ["sciencebeam_trainer_grobid_tools/core/annotation/target_annotation.py:re_compile_or_none", "sciencebeam_trainer_grobid_tools/annotation/simple_matching_annotator.py:parse_regex", "sciencebeam_trainer_grobid_tools/utils/regex.py:regex_change_name", "sciencebeam_trainer_grobid_tools/fix_jats_xml.py:find_re_pattern_start_end", "sciencebeam_trainer_grobid_tools/auto_annotate_utils.py:_resolve_tag_expression_namespace"]}
{"id": "C130", "title": "What is reported about required elements", "statement": "Looking for elements gives the matches of the expression as they are; the first match is the first one in the document. If a required element is missing, the report is a ValueError whose hint is the longest part of the expression before a slash, of at least two characters, that has matches, and there is no hint exactly if no such part has matches. All other errors are those of lxml, for the expression or for the longest such part that cannot be evaluated; these do occur, for text//div for instance.", "quantifier": "all expressions; all evaluators of expressions; all documents", "why_tests_cant": "Tests look for a few paths; the hint depends on all parts of the expression and on whether they can be evaluated at all.", "anchors": ["sciencebeam_trainer_grobid_tools/utils/xml.py:get_xpath_matches", "sciencebeam_trainer_grobid_tools/utils/xml.py:get_first_xpath_match", "sciencebeam_trainer_grobid_tools/utils/tei_xml.py:get_tei_xpath_matches", "sciencebeam_trainer_grobid_tools/utils/tei_xml.py:get_first_tei_xpath_match"]}
{"id": "C131", "title": "Texts enter the complex matcher only as they are read", "statement": "The complex matcher reads a text in lower case, with long dashes as hyphens, thin spaces as spaces, apostrophes and their entities as quotes. Its choices are the lines with words that have no tag yet, numbered in order, with exactly these words, each stripped, read so and without junk. Two documents with the same tags whose words read alike, annotated for targets whose values read alike, get the same tags and sub tags everywhere, or the same error.", "quantifier": "all texts, documents and lists of targets with sub annotations; all sequence matchers, filters, gaps and prefixes", "why_tests_cant": "Tests annotate a few titles; that nothing but the reading of the texts matters is a statement about pairs of runs, with generators, conditional matches and sub annotations in between.", "anchors": ["sciencebeam_trainer_grobid_tools/core/annotation/matching_annotator.py:normalise_str", "sciencebeam_trainer_grobid_tools/core/annotation/matching_annotator.py:normalise_and_remove_junk_str_or_list", "sciencebeam_trainer_grobid_tools/core/annotation/matching_annotator.py:SequenceWrapper", "sciencebeam_trainer_grobid_tools/core/annotation/matching_annotator.py:MatchingAnnotator", "sciencebeam_trainer_grobid_tools/core/annotation/fuzzy_match.py:remove_junk"]}
{"id": "C132", "title": "Files of match details can be read back", "statement": "The file a reporter has written is read, by the usual grammar of separated values, as the list of its columns followed by one line per reported row in order: the number of the row, counted from one, in the column id, and in every other column the reported text, or nothing where nothing or None was reported. No file has two readings. With the default columns all twenty columns are filled from the row, its three matches and the target.", "quantifier": "all columns, sequences of rows and texts; all delimiters but quotes and line ends", "why_tests_cant": "The texts are arbitrary parts of documents with quotes, delimiters and line breaks; that no two reports give the same file is a statement about all of them.", "anchors": ["sciencebeam_trainer_grobid_tools/core/annotation/matching_annotator.py:CsvMatchDetailReporter", "sciencebeam_trainer_grobid_tools/core/annotation/matching_annotator.py:MatchDebugFields", "sciencebeam_trainer_grobid_tools/auto_annotate_utils.py:get_match_detail_reporter"]}
{"id": "C133", "title": "Words enter the simple matcher only as they are read", "statement": "Two documents with the same lines, whose words have the same main tags and read alike (equal after lower casing once long dashes are hyphens, thin spaces are spaces and apostrophes are quotes), get the same main tags from the simple matcher for the same target annotations, whatever the fuzzy search, the regular expressions and the settings do and whatever happens to sub tags. Without sub annotations they also fail in the same way. Sub tags do depend on how a word is written: a word with another dash is not found again.", "quantifier": "all documents, target annotations, settings, search functions and regular expression engines", "why_tests_cant": "A test shows this for a few pairs of texts and one search function; the claim relates two runs on any two documents and holds for any search.", "anchors": ["sciencebeam_trainer_grobid_tools/annotation/simple_matching_annotator.py:process_target_annotations", "sciencebeam_trainer_grobid_tools/annotation/simple_matching_annotator.py:update_annotation_for_index_range", "sciencebeam_trainer_grobid_tools/annotation/simple_matching_annotator.py:process_sub_annotations", "sciencebeam_trainer_grobid_tools/annotation/simple_matching_annotator.py:extend_annotations_to_whole_line", "sciencebeam_trainer_grobid_tools/annotation/simple_matching_annotator.py:_do_annotate", "sciencebeam_trainer_grobid_tools/annotation/matching_utils.py:PendingSequences"]}
{"id": "C134", "title": "A value that is not found is searched as its words", "statement": "A value that is long enough and is not found as it is, is searched as its words with one space in between: the runs of word characters that cannot be made longer, and every other character that is not a space, in order. A text has exactly one such list of words, the searched text has the same words as the value, and two values are searched as the same text exactly if they have the same words.", "quantifier": "all texts and values, all search functions, all classes of word characters and spaces without common characters", "why_tests_cant": "Tests cover a few values with punctuation; the claim is about every text, including runs of punctuation and spaces at the ends.", "anchors": ["sciencebeam_trainer_grobid_tools/annotation/simple_matching_annotator.py:split_and_join_with_space", "sciencebeam_trainer_grobid_tools/annotation/simple_matching_annotator.py:get_fuzzy_matching_index_range_chunks"]}
{"id": "C135", "title": "Sub annotations do not change what is found for the main tags", "statement": "A run of the simple matcher with sub annotations that succeeds has exactly the main tags of the run without sub annotations on the same document, targets and settings, and the latter succeeds too; without sub annotations every sub tag stays as it is. The converse is false: a sub annotation with several values makes a run fail that succeeds without.", "quantifier": "all documents, target annotations, settings, search functions and regular expression engines", "why_tests_cant": "It compares two runs for all inputs; a test compares them for one document.", "anchors": ["sciencebeam_trainer_grobid_tools/annotation/simple_matching_annotator.py:process_sub_annotations", "sciencebeam_trainer_grobid_tools/annotation/simple_matching_annotator.py:process_target_annotations", "sciencebeam_trainer_grobid_tools/annotation/simple_matching_annotator.py:SimpleSimpleMatchingConfig", "sciencebeam_trainer_grobid_tools/annotation/simple_matching_annotator.py:_do_annotate"]}
{"id": "C136", "title": "Words that have a tag already do not matter for the search", "statement": "Two documents with the same lines and the same main tags, in which words without tag read alike while words with a tag may be any words, get the same main tags from the simple matcher for the same target annotations with names. With sub annotations one of the runs may fail where the other does not; without, both fail in the same way.", "quantifier": "all documents, target annotations with names, settings, search functions and regular expression engines", "why_tests_cant": "It relates two runs on any two documents; a test sees one document at a time.", "anchors": ["sciencebeam_trainer_grobid_tools/annotation/simple_matching_annotator.py:process_target_annotations", "sciencebeam_trainer_grobid_tools/annotation/simple_matching_annotator.py:update_annotation_for_index_range", "sciencebeam_trainer_grobid_tools/annotation/simple_matching_annotator.py:extend_annotations_to_whole_line", "sciencebeam_trainer_grobid_tools/annotation/matching_utils.py:PendingSequences", "sciencebeam_trainer_grobid_tools/annotation/matching_utils.py:SequenceWrapper"]}
{"id": "C137", "title": "Sub tags of a command are written inside the element of their tag", "statement": "In the table of every command, when a field and a field whose name goes on from it with a hyphen both have a path, the path of the second goes on from the path of the first. So a word with a tag and one of its sub tags is written in the element of the sub tag, inside that of the tag; the sub tag is never dropped. This does not hold for further fields given on the command line: a field such as figure-note gets a note element of its own and as a sub tag of figure it is not written.", "quantifier": "all commands, all selections of fields, all words and all tags with sub tags in the table of the command", "why_tests_cant": "Tests write a few sub tags of some commands; a missing slash in one entry of a table is seen by no test of another entry, and the sub tag is dropped silently.", "anchors": ["sciencebeam_trainer_grobid_tools/auto_annotate_fulltext.py:AnnotatePipelineFactory", "sciencebeam_trainer_grobid_tools/auto_annotate_reference.py:AnnotatePipelineFactory", "sciencebeam_trainer_grobid_tools/auto_annotate_figure.py:AnnotatePipelineFactory", "sciencebeam_trainer_grobid_tools/auto_annotate_affiliation_address.py:AnnotatePipelineFactory", "sciencebeam_trainer_grobid_tools/structured_document/grobid_training_tei.py:_lines_to_tei"]}
{"id": "C138", "title": "The settings built into the commands", "statement": "No command searches values of one character; every command finds a word of two characters at the first place where it is a whole word and nowhere else. The expansions of the full text command give tags only to words without tag, and only the tags of figures and tables; every word without tag between other tagged words and a following figure or table joins it if expansion to previous lines is asked for, and every one after a figure or table joins that if only expansion to following lines is asked for. Sub fields can be selected for full texts, figures, tables and affiliations; for the other commands the selection has no effect.", "quantifier": "all commands, options, documents, values, mappings", "why_tests_cant": "These settings are constants in several modules; tests of one command say nothing about the same constant of another, and tests use a few documents.", "anchors": ["sciencebeam_trainer_grobid_tools/auto_annotate_utils.py:get_simple_annotator_config", "sciencebeam_trainer_grobid_tools/auto_annotate_fulltext.py:_get_annotator", "sciencebeam_trainer_grobid_tools/auto_annotate_fulltext.py:AnnotatePipelineFactory", "sciencebeam_trainer_grobid_tools/auto_annotate_affiliation_address.py:AnnotatePipelineFactory", "sciencebeam_trainer_grobid_tools/annotation/simple_matching_annotator.py:SimpleSimpleMatchingConfig"]}
{"id": "C139", "title": "Running the passes after the matcher again changes nothing", "statement": "The expansion to previous and to following untagged lines, both one after the other, and the merging of groups change nothing when they are run a second time, whatever tags are expanded and whatever the groups are. This does not hold for the extension of tags to whole lines (a second run may find that by now most of a line has the tag) and for the removal of untagged words (each run repeats the words once per line).", "quantifier": "all documents, sets of expanded tags, group functions and tag levels", "why_tests_cant": "Idempotence relates two runs on any document; tests run a pass once on a few documents.", "anchors": ["sciencebeam_trainer_grobid_tools/annotation/expand_to_untagged_lines_annotator.py:ExpandToPreviousUntaggedLinesPostProcessingAnnotator", "sciencebeam_trainer_grobid_tools/annotation/expand_to_untagged_lines_annotator.py:ExpandToFollowingUntaggedLinesPostProcessingAnnotator", "sciencebeam_trainer_grobid_tools/annotation/merge_group_tags_annotator.py:annotate", "sciencebeam_trainer_grobid_tools/annotation/simple_matching_annotator.py:extend_annotations_to_whole_line", "sciencebeam_trainer_grobid_tools/structured_document/grobid_training_tei.py:remove_all_untagged"]}
{"id": "C140", "title": "Blocks of fields and where the search goes on", "statement": "The simple matcher moves its search only for a field of another block than the current one that is not found in the lines ahead but is found in the whole document; all fields without a configured block are in one block. The search then goes on with the line in which the match starts and all lines after it. While the search is in a block, fields of that block never move it, and those not found in the lines ahead are left for the next round.", "quantifier": "all documents, target annotations, tag configurations, search functions, line texts and separators", "why_tests_cant": "The effect depends on the order of the fields, the lookahead and the state of the search after any number of fields; tests cover a few orders on short documents.", "anchors": ["sciencebeam_trainer_grobid_tools/annotation/simple_matching_annotator.py:process_target_annotations", "sciencebeam_trainer_grobid_tools/annotation/matching_utils.py:JoinedText", "sciencebeam_trainer_grobid_tools/annotation/matching_utils.py:SequencesText", "sciencebeam_trainer_grobid_tools/annotation/matching_utils.py:PendingSequences", "sciencebeam_trainer_grobid_tools/annotation/matching_utils.py:join_with_index_ranges"]}
{"id": "C141", "title": "Quotes of titles", "statement": "Quotes around a title are moved out of it: the left one to the end of the text in front, the right one to the start of the text behind (the right one only if there is text behind the last child). A left quote with its right quote elsewhere in the title stays; a left quote with no right quote in the title is moved in front of it; a title that does not start with a quote is unchanged.", "quantifier": "every title element with any children and every text in front of it", "why_tests_cant": "all titles and child elements; the tests have some quotes in text only", "anchors": ["sciencebeam_trainer_grobid_tools/fix_jats_xml.py:remove_surrounding_quotes_from_element", "sciencebeam_trainer_grobid_tools/fix_jats_xml.py:has_surrounding_quotes"]}
