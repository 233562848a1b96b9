{
 "claims": [
  {
   "property": "C01",
   "status": "proved",
   "theorems": [
    "C01_split_of_prefixed",
    "C01_join_of_split",
    "C01_join_of_split_refuted",
    "C01_split_shape",
    "C01_nothing_added",
    "C01_value_kept"
   ],
   "note": "Round trip holds for every tag except the two bare prefixes 'b-' and 'i-' (refuted there)."
  },
  {
   "property": "C02",
   "status": "proved",
   "theorems": [
    "C02_concat",
    "C02_nonempty",
    "C02_inside",
    "C02_between"
   ],
   "note": "Lossless; exact characterisation of where texts are split."
  },
  {
   "property": "C03",
   "status": "proved",
   "theorems": [
    "C03_text",
    "C03_containers",
    "C03_lines",
    "C03_lines_refuted"
   ],
   "note": "Text kept for any number of containers. Line count is exact; 'one more line than breaks' is refuted for a trailing break."
  },
  {
   "property": "C04",
   "status": "proved",
   "theorems": [
    "C04_saves_iff",
    "C04_text",
    "C04_lines",
    "C04_breaks",
    "C04_layout_exists",
    "C04_layout_unique",
    "C04_breaks_refuted",
    "C04_line_text_refuted",
    "C04_saves_refuted"
   ],
   "note": "Text, order of words and line breaks, number of line breaks for all documents; exact condition under which saving succeeds. Exceptions are refuted separately: elements named lb in a mapped path, trailing spaces of a line move behind the break, attribute values with a slash load but do not save."
  },
  {
   "property": "C05",
   "status": "proved",
   "theorems": [
    "C05_located",
    "C05_split_join",
    "C05_split_no_slash",
    "C05_fragment"
   ],
   "note": "Every word of every saved document is at its mapped path; a path element denotes the element it was made from."
  },
  {
   "property": "C06",
   "status": "proved",
   "theorems": [
    "C06_contiguous",
    "C06_begin",
    "C06_begin_sub",
    "C06_continue",
    "C06_continue_sub",
    "C06_continue_refuted"
   ],
   "note": "Begin tags open a new element, words of an element are consecutive, continued entities stay in one element; refuted for an ignored begin sub tag, which still splits the element."
  },
  {
   "property": "C07",
   "status": "proved",
   "theorems": [
    "C07_loads",
    "C07_text",
    "C07_tags",
    "C07_reloaded",
    "C07_prefixes",
    "C07_reloaded_subs",
    "C07_sub_tags",
    "C07_nested_refuted",
    "C07_prefixes_refuted",
    "C07_default_refuted",
    "C07_sub_tags_refuted"
   ],
   "note": "Saved documents load again with the same text. For every document whose words lie in elements that are found again (no entity around them) the lines, characters, main tags, begin tags (C07_reloaded) and sub tags (C07_reloaded_subs) after reloading are described exactly, with or without a mapping entry for untagged text; main and sub tags are the same as before for well formed tagging (C07_prefixes, C07_sub_tags). Where the claim fails is shown by the refuted theorems: nested mapped paths, inside tags that continue nothing, a path shared by a tag and untagged text, sub tags after a line break."
  },
  {
   "property": "C08",
   "status": "proved",
   "theorems": [
    "C08_save",
    "C08_single",
    "C08_duplicates",
    "C08_no_container",
    "C08_refuted"
   ],
   "note": "The first container gets the text of all containers, the others are kept: correct for one container, duplicated text (exact amount proved) for several; refuted in general by C08_refuted."
  },
  {
   "property": "C09",
   "status": "proved",
   "theorems": [
    "C09_lines",
    "C09_words",
    "C09_one_line",
    "C09_copies",
    "C09_refuted",
    "C09_remembered_refuted"
   ],
   "note": "Exactly the tagged words survive and all untagged are dropped; each once and in order for a document of one line. With more lines the accumulated text is repeated (C09_copies gives the exact result, C09_refuted a counter example)."
  },
  {
   "property": "C10",
   "status": "proved",
   "theorems": [
    "C10_loaded",
    "C10_prepared",
    "C10_always",
    "C10_last_set",
    "C10_new_wins",
    "C10_fall_back",
    "C10_fall_back_refuted",
    "C10_document"
   ],
   "note": "For any sequence of tag assignments. The fall back is lost for words on the same line as a re-tagged word with the same remembered value (C10_fall_back_refuted); C10_fall_back gives the exact side condition."
  },
  {
   "property": "C11",
   "status": "partial",
   "theorems": [
    "C11_one",
    "C11_layout",
    "C11_saved",
    "C11_removed_partial",
    "C11_one_line",
    "C11_removed_refuted"
   ],
   "note": "every sequence of the annotators without removal keeps texts, order and lines; with removal only tokens are left out of a one-line document, but with several lines the text is repeated (refuted, see C09)"
  },
  {
   "property": "C12",
   "status": "proved",
   "theorems": [
    "C12_no_overwrite",
    "C12_annotate",
    "C12_rounds",
    "C12_terminates"
   ],
   "note": "whole annotator modelled, for arbitrary search results; with line extension for tags that are not empty apart from the prefix"
  },
  {
   "property": "C13",
   "status": "proved",
   "theorems": [
    "C13_join",
    "C13_ranges",
    "C13_all_items",
    "C13_error",
    "C13_pad_refuted",
    "C13_between",
    "C13_sequence",
    "C13_tokens",
    "C13_core",
    "C13_disjoint"
   ],
   "note": "for the default padding (the only one used); refuted for every non-empty padding"
  },
  {
   "property": "C14",
   "status": "proved",
   "theorems": [
    "C14_unique",
    "C14_runs",
    "C14_all_untagged",
    "C14_limit"
   ],
   "note": "the maximal run decomposition is shown to be unique"
  },
  {
   "property": "C15",
   "status": "partial",
   "theorems": [
    "C15_clusters",
    "C15_select",
    "C15_select_few",
    "C15_widest",
    "C15_nested_refuted",
    "C15_merged"
   ],
   "note": "termination, partition, fix point and selection proved for all ranges; selected cluster is the widest for non-nested ranges, refuted for nested ones"
  },
  {
   "property": "C16",
   "status": "proved",
   "theorems": [
    "C16_runs",
    "C16_length",
    "C16_value",
    "C16_gap"
   ],
   "note": "exact result for every maximal group of equal values; tags with an empty value are excluded (C16_length covers all)"
  },
  {
   "property": "C17",
   "status": "proved",
   "theorems": [
    "C17_selection",
    "C17_all"
   ],
   "note": "Every document, minimum and gap; int() is an arbitrary function."
  },
  {
   "property": "C18",
   "status": "proved",
   "theorems": [
    "C18_tagged",
    "C18_no_lines",
    "C18_ratio_option_refuted",
    "C18_gap_option_refuted"
   ],
   "note": "Every document and configuration with a number as threshold; a page without words and minimum <= 0 ends in ZeroDivisionError. Found: the command line ratio is a text (TypeError on every page with enough candidates) and the gap option is not used."
  },
  {
   "property": "C19",
   "status": "proved",
   "theorems": [
    "C19_previous_exact",
    "C19_following_exact",
    "C19_values",
    "C19_previous_no_hole",
    "C19_following_no_hole"
   ],
   "note": "Both passes, exact result for every token."
  },
  {
   "property": "C20",
   "status": "proved",
   "theorems": [
    "C20_pointwise",
    "C20_tagged_kept",
    "C20_changed",
    "C20_complete"
   ],
   "note": "pointwise characterisation of group merging for both tag levels; tokens not shared between lines"
  },
  {
   "property": "C21",
   "status": "partial",
   "theorems": [
    "C21_every_line",
    "C21_tagged_stay",
    "C21_layout",
    "C21_one_tag_refuted"
   ],
   "note": "Every line ends up tagged: a segmentation tag on all tokens, or the line is left alone because its most frequent tag is unmapped (or kept with no_merge_references). The claim that every line has one tag on all its tokens is refuted for left alone lines."
  },
  {
   "property": "C22",
   "status": "partial",
   "theorems": [
    "C22_missing_pages_partial",
    "C22_increasing_gap",
    "C22_strict_refuted",
    "C22_increasing_refuted",
    "C22_preserved"
   ],
   "note": "Proved with a lower bound that is not strict. Refuted: the number may equal that of the page before, and numbers in a gap need not increase (min_page_number += 1)."
  },
  {
   "property": "C23",
   "status": "partial",
   "theorems": [
    "C23_exact",
    "C23_tagged_keep_refuted"
   ],
   "note": "Exact set of headnote lines. Refuted: a line with a tag and the text of a header loses its tag."
  },
  {
   "property": "C24",
   "status": "proved",
   "theorems": [
    "C24_prefix",
    "C24_prefix_rest",
    "C24_prefix_total",
    "C24_prefix_length",
    "C24_prefix_values",
    "C24_prefix_tokens",
    "C24_suffix",
    "C24_suffix_total",
    "C24_suffix_values",
    "C24_etal",
    "C24_empty_text_refuted"
   ],
   "note": "re.search is an oracle giving the start of the match; tags none or with a value, token texts not empty (words); for an empty token text the prefix tag is shifted (refuted)"
  },
  {
   "property": "C25",
   "status": "proved",
   "theorems": [
    "C25_partition",
    "C25_unique"
   ],
   "note": "partition, one value per group, begin tag only at the start, and the grouping is the only one of this kind"
  },
  {
   "property": "C26",
   "status": "proved",
   "theorems": [
    "C26_filter",
    "C26_default"
   ],
   "note": "any junk function that can be applied at every position; the default rule is spelled out separately"
  },
  {
   "property": "C27",
   "status": "partial",
   "theorems": [
    "C27_invert",
    "C27_sorted",
    "C27_refuted"
   ],
   "note": "holds when no range ends before the start of the outer range (always the case at the call sites); without that the result leaves the outer range (refuted)"
  },
  {
   "property": "C28",
   "status": "proved",
   "theorems": [
    "C28_ratios",
    "C28_positive",
    "C28_reported_refuted",
    "C28_values"
   ],
   "note": "All ratios of results with ordered blocks inside both texts lie in [0,1]; refuted for results reported by the character search, whose block sizes count spaces of the haystack."
  },
  {
   "property": "C29",
   "status": "partial",
   "theorems": [
    "C29_a_count",
    "C29_a_pre",
    "C29_a_post",
    "C29_a_post_refuted",
    "C29_b_count",
    "C29_b_pre",
    "C29_b_post",
    "C29_b_post_refuted"
   ],
   "note": "counts always; pairing unless the index cuts a block: then the other index of the second part is not advanced (refuted)"
  },
  {
   "property": "C30",
   "status": "proved",
   "theorems": [
    "C30_split",
    "C30_blocks"
   ],
   "note": "difflib's matcher on the words is an oracle with its documented contract"
  },
  {
   "property": "C31",
   "status": "proved",
   "theorems": [
    "C31_view",
    "C31_range",
    "C31_no_junk",
    "C31_default"
   ],
   "note": ""
  },
  {
   "property": "C32",
   "status": "proved",
   "theorems": [
    "C32_stride_positive",
    "C32_overlap",
    "C32_visits",
    "C32_terminates",
    "C32_total",
    "C32_search"
   ],
   "note": "Stride positive for every configuration; visited offsets are start + k*stride; if nothing is found, every range not longer than the overlap lies in one window; the search ends for every matcher (one chunk) and succeeds for every number of chunks under the matcher contract."
  },
  {
   "property": "C33",
   "status": "partial",
   "theorems": [
    "C33_terminates",
    "C33_ranges",
    "C33_zero_refuted"
   ],
   "note": "Ends for every search function; ranges strictly increasing and inside the haystack for positive thresholds and one chunk (the only way the code calls it); refuted for threshold 0."
  },
  {
   "property": "C34",
   "status": "partial",
   "theorems": [
    "C34_positions",
    "C34_range",
    "C34_chunks_refuted"
   ],
   "note": "Holds for one chunk and every start index; refuted for two chunks: the first chunk is not shifted by the start of its window."
  },
  {
   "property": "C35",
   "status": "proved",
   "theorems": [
    "C35_normal",
    "C35_shape",
    "C35_idempotent",
    "C35_stripped"
   ],
   "note": "strip_whitespace equals an independent run-normalising specification for enough fuel (twice the length plus one); get_stripped_text_content has no surrounding white space"
  },
  {
   "property": "C36",
   "status": "proved",
   "theorems": [
    "C36_permutation",
    "C36_nothing_lost",
    "C36_sorted",
    "C36_stable",
    "C36_priority"
   ],
   "note": "the values extracted per element are inputs of the model"
  },
  {
   "property": "C37",
   "status": "partial",
   "theorems": [
    "C37_fields",
    "C37_no_selection",
    "C37_sub_fields",
    "C37_sub_fields_partial",
    "C37_sub_option_refuted"
   ],
   "note": "Field selection proved for plain names. False for sub fields: options of a selected sub field such as x.sub.NAME.extract-regex are dropped; proved when sub options have no further dot."
  },
  {
   "property": "C38",
   "status": "partial",
   "theorems": [
    "C38_plain",
    "C38_counts",
    "C38_last_statement_partial",
    "C38_last_statement_refuted",
    "C38_items"
   ],
   "note": "Exact counts and the error condition for every argument; the last statement does not decide in general (+a,-a with default a keeps a), proved for items mentioned once and defaults without duplicates"
  },
  {
   "property": "C39",
   "status": "proved",
   "theorems": [
    "C39_parse_dict",
    "C39_alternative_spellings"
   ],
   "note": "default delimiter; values of alternative spellings are not stripped one by one; splitlines modelled with a class of single line boundary characters"
  },
  {
   "property": "C40",
   "status": "proved",
   "theorems": [
    "C40_entities",
    "C40_all_tokens",
    "C40_segmented_unique",
    "C40_nothing",
    "C40_error",
    "C40_passes",
    "C40_text",
    "C40_words"
   ],
   "note": "similarity test is an arbitrary function; sets are lists in any order"
  },
  {
   "property": "C41",
   "status": "proved",
   "theorems": [
    "C41_one",
    "C43_others"
   ],
   "note": "one run of auto_annotate for every outcome; C43_others: in any parallel execution no other file changes"
  },
  {
   "property": "C42",
   "status": "proved",
   "theorems": [
    "C42_resume",
    "C42_all",
    "C42_single",
    "C42_found"
   ],
   "note": "file list and file system arbitrary; order and multiplicity kept"
  },
  {
   "property": "C43",
   "status": "partial",
   "theorems": [
    "C43_isolated",
    "C43_safe",
    "C43_others",
    "C43_progress",
    "C43_ends",
    "C43_names",
    "C43_sources",
    "C43_refuted",
    "C43_names_refuted"
   ],
   "note": "Proved for every schedule if the exit stack is not shared, no temporary copies are used or there is one worker; without that each document is correct or fails untouched (C43_safe). False for threads with copies: C43_refuted"
  },
  {
   "property": "C44",
   "status": "partial",
   "theorems": [
    "C44_partial",
    "C44_refuted",
    "C44_old_refuted"
   ],
   "note": "Proved for kills at which no output file is half written, with resume or no outputs at first. False otherwise (refutations)"
  },
  {
   "property": "C45",
   "status": "partial",
   "theorems": [
    "C45_run",
    "C45_alone",
    "C45_refuted",
    "C45_workers"
   ],
   "note": "Proved under the isolation condition of C43; false for threads that share the exit stack (C45_refuted)"
  },
  {
   "property": "C46",
   "status": "proved",
   "theorems": [
    "C46_pairs",
    "C46_errors",
    "C46_copies",
    "C46_exist",
    "C46_download"
   ],
   "note": "existence and copying for every thread schedule; contents under distinct outputs that are no sources; assumes that making an absolute path absolute again does not change it (sciencebeam_utils)"
  },
  {
   "property": "C47",
   "status": "partial",
   "theorems": [
    "C47_text",
    "C47_tail",
    "C47_reference",
    "C47_comment_partial",
    "C47_comment_refuted"
   ],
   "note": "Proved for text and tails without condition, for every finder with a range; in comments only if nothing is inside and nothing follows: otherwise the new element lands behind the following text (refuted)."
  },
  {
   "property": "C48",
   "status": "partial",
   "theorems": [
    "C48_found",
    "C48_replace",
    "C48_partial",
    "C48_tail_refuted",
    "C48_order_refuted"
   ],
   "note": "Found text: the three parts are exact. Nothing found: the text stays iff the element has nothing inside and no tail (exact condition); otherwise lost (refuted). Text cut off before an inner element is moved behind it (refuted)."
  },
  {
   "property": "C49",
   "status": "proved",
   "theorems": [
    "C49_doi",
    "C49_title",
    "C49_url",
    "C49_space_refuted"
   ],
   "note": "find_doi_start_end, the title range and split_url of fix_jats_xml.py, for every text. Stop words and punctuation removal are left open. C49_space_refuted: the reported DOI may end with white space (10.1234/a ;)."
  },
  {
   "property": "C50",
   "status": "partial",
   "theorems": [
    "C50_well_nested",
    "C50_error",
    "C50_one_root_refuted"
   ],
   "note": "well nested output (rendering of a forest) and exact failure condition proved for all event sequences; that it is a document with one root is refuted"
  },
  {
   "property": "C51",
   "status": "partial",
   "theorems": [
    "C51_text",
    "C51_attribute",
    "C51_reads_unique",
    "C51_unchanged",
    "C51_valid",
    "C51_all_text",
    "C51_ignored_refuted",
    "C51_end_tag_refuted"
   ],
   "note": "text, order, start tags and attributes kept, well nested input reproduced; comments/PIs lost and the named element not closed are refuted"
  },
  {
   "property": "C52",
   "status": "partial",
   "theorems": [
    "C52_exact",
    "C52_shown_partial",
    "C52_refuted"
   ],
   "note": "exact effect proved: main tags are replaced by the remembered ones, sub tags only added; refuted for tags given by an earlier annotator (lost)"
  },
  {
   "property": "C53",
   "status": "partial",
   "theorems": [
    "C53_replaced",
    "C53_layout",
    "C53_spaces",
    "C53_remembered_refuted"
   ],
   "note": "holds for words with given tags and for remembered tags unique on the line; refuted for a remembered tag shared by several words of a line"
  },
  {
   "property": "C54",
   "status": "proved",
   "theorems": [
    "C54_no_overwrite",
    "C54_total"
   ],
   "note": "the block finder is an oracle; totality needs it and the two filters to be total (proved for the default filters)"
  },
  {
   "property": "C55",
   "status": "proved",
   "theorems": [
    "C55_common_path",
    "C55_starts_with"
   ],
   "note": "Longest common prefix."
  },
  {
   "property": "C56",
   "status": "proved",
   "theorems": [
    "C56_loads_iff"
   ],
   "note": "Exact characterisation of successful loading."
  },
  {
   "property": "C57",
   "status": "proved",
   "theorems": [
    "C57_main_tags",
    "C57_not_preserved",
    "C57_sub_tags",
    "C57_sub_tags_refuted"
   ],
   "note": "Main and sub tags after loading equal a specification on the tree; sub tags are lost after a child element (refuted)."
  },
  {
   "property": "C58",
   "status": "partial",
   "theorems": [
    "C58_kept",
    "C58_nothing_lost_partial",
    "C58_values",
    "C58_char_lost_refuted"
   ],
   "note": "False as stated: the character directly after a match is dropped from the pieces. The kept characters are characterised exactly and nothing is lost when matches are followed by white space."
  },
  {
   "property": "C59",
   "status": "partial",
   "theorems": [
    "C59_spaces_partial",
    "C59_text",
    "C59_lines_refuted"
   ],
   "note": "False for texts with line feeds (the pattern does not match across lines); proved for one-line texts; for all texts only spaces between texts are added"
  },
  {
   "property": "C60",
   "status": "partial",
   "theorems": [
    "C60_ignored_partial",
    "C60_comment_refuted"
   ],
   "note": "False with comments: their text becomes part of the value when something is ignored; proved without comments"
  },
  {
   "property": "C61",
   "status": "proved",
   "theorems": [
    "C61_contains_raw_text"
   ],
   "note": ""
  },
  {
   "property": "C62",
   "status": "proved",
   "theorems": [
    "C62_overrides",
    "C62_sub_mapping"
   ],
   "note": ""
  },
  {
   "property": "C63",
   "status": "proved",
   "theorems": [
    "C63_merge"
   ],
   "note": "Exact result for every line."
  },
  {
   "property": "C64",
   "status": "proved",
   "theorems": [
    "C64_late_front"
   ],
   "note": "Exact result for every line."
  },
  {
   "property": "C65",
   "status": "proved",
   "theorems": [
    "C65_words",
    "C65_entities",
    "C65_error",
    "C65_total",
    "C65_map_tag"
   ],
   "note": "entity_result repeats the order of the four passes; their effect is C24 and C16"
  },
  {
   "property": "C66",
   "status": "partial",
   "theorems": [
    "C66_next_partial",
    "C66_next_short_partial",
    "C66_words_partial",
    "C66_words_short_partial",
    "C66_refuted"
   ],
   "note": "false in general: positions on the second line are compared one to the left (the joining space is not counted); exact where the match neither starts at the last character of a word nor ends right before one"
  },
  {
   "property": "C67",
   "status": "proved",
   "theorems": [
    "C67_parts",
    "C67_path",
    "C67_dir_filename",
    "C67_default",
    "C67_document",
    "C67_braces"
   ],
   "note": ""
  },
  {
   "property": "C68",
   "status": "partial",
   "theorems": [
    "C68_partial",
    "C68_simple",
    "C68_tail_refuted",
    "C68_links_refuted"
   ],
   "note": "Holds whenever each step is safe when it is reached, and for every simple reference by a condition on the reference alone; refuted for identifiers that are not found and have a tail, and for two links in one element followed by text."
  },
  {
   "property": "C69",
   "status": "partial",
   "theorems": [
    "C69_only",
    "C69_no_doi",
    "C69_first_refuted",
    "C69_text_refuted",
    "C69_two_refuted"
   ],
   "note": "Only the DOI to link step can raise, and only RuntimeError or TypeError; references without DOIs never raise; refuted by a DOI without text as first element, after a link prefix, and two DOIs behind a link prefix."
  },
  {
   "property": "C70",
   "status": "proved",
   "theorems": [
    "C70_outside",
    "C70_references",
    "C70_changed",
    "C70_content",
    "C70_meta"
   ],
   "note": "etree.tostring is an arbitrary function; references inside references are not looked at."
  },
  {
   "property": "C71",
   "status": "proved",
   "theorems": [
    "C71_whitespace"
   ],
   "note": ""
  },
  {
   "property": "C72",
   "status": "proved",
   "theorems": [
    "C72_marks",
    "C72_search",
    "C72_short",
    "C72_placeholders",
    "C72_no_placeholder",
    "C72_open_brace"
   ],
   "note": "the search functions are arbitrary; marking, search order, length test and placeholder replacement are exact"
  },
  {
   "property": "C73",
   "status": "proved",
   "theorems": [
    "C73_initial",
    "C73_run"
   ],
   "note": "before the extension to whole lines (C16)"
  },
  {
   "property": "C74",
   "status": "proved",
   "theorems": [
    "C74_run",
    "C74_distance",
    "C74_filter",
    "C74_defaults"
   ],
   "note": "the matching of two texts and the filters are arbitrary in C74_run; C74_filter is about the default ones, with exact ratios"
  },
  {
   "property": "C75",
   "status": "proved",
   "theorems": [
    "C75_marks"
   ],
   "note": "which sub tag a word gets depends on the search for the sub annotation"
  },
  {
   "property": "C76",
   "status": "proved",
   "theorems": [
    "C76_truncate",
    "C76_duplicate",
    "C76_title",
    "C76_address",
    "C76_link",
    "C76_one",
    "C76_comma",
    "C76_comma_kept"
   ],
   "note": "Stop words, removal of punctuation and the repeated DOI in a link are parameters; the theorem for titles assumes that a comma and a P are not white space. C76_one is about the annotation without comments."
  },
  {
   "property": "C77",
   "status": "proved",
   "theorems": [
    "C77_qualified",
    "C77_split",
    "C77_plain",
    "C77_inside_word"
   ],
   "note": "one namespace; word characters arbitrary"
  },
  {
   "property": "C78",
   "status": "proved",
   "theorems": [
    "C78_kept",
    "C78_distinct",
    "C78_segmentation",
    "C78_segmentation_refuted",
    "C78_other_refuted"
   ],
   "note": "every list of fields; the two exceptions are proved to fail"
  },
  {
   "property": "C79",
   "status": "proved",
   "theorems": [
    "C79_names",
    "C79_prepared",
    "C79_annotated"
   ],
   "note": "per level a set of values that no annotator leaves; target annotations, their matches and the configuration are arbitrary"
  },
  {
   "property": "C80",
   "status": "proved",
   "theorems": [
    "C80_loaded",
    "C80_saves",
    "C80_commands",
    "C80_field_refuted",
    "C80_link_refuted"
   ],
   "note": "lxml is assumed to accept usual names; annotating itself is assumed to have succeeded"
  },
  {
   "property": "C81",
   "status": "proved",
   "theorems": [
    "C81_text",
    "C81_removed_refuted"
   ],
   "note": "sources with one container"
  },
  {
   "property": "C82",
   "status": "proved",
   "theorems": [
    "C82_main_tags"
   ],
   "note": "without removal of untagged text"
  },
  {
   "property": "C83",
   "status": "proved",
   "theorems": [
    "C83_entity",
    "C83_nothing",
    "C83_error",
    "C83_passes",
    "C83_listed",
    "C83_found",
    "C83_order_refuted"
   ],
   "note": "for every iteration order of the field set; the order matters for fields that are not listed (refuted part)"
  },
  {
   "property": "C84",
   "status": "proved",
   "theorems": [
    "C84_fixed",
    "C84_clean",
    "C84_refuted"
   ],
   "note": "exact; without closed tags a new closing tag can arise (refuted part)"
  },
  {
   "property": "C85",
   "status": "proved",
   "theorems": [
    "C85_parsed",
    "C85_error",
    "C85_options",
    "C85_directory"
   ],
   "note": "re.sub is an argument"
  },
  {
   "property": "C86",
   "status": "proved",
   "theorems": [
    "C86_field",
    "C86_map",
    "C86_default"
   ],
   "note": "re.compile, int and str.lower are arguments"
  },
  {
   "property": "C87",
   "status": "proved",
   "theorems": [
    "C87_annotates",
    "C87_loads_iff",
    "C87_bound",
    "C87_saves",
    "C87_searches",
    "C87_ratio_refuted",
    "C87_minimum_refuted",
    "C87_values_refuted",
    "C87_prefix_refuted"
   ],
   "note": "conditions of the options and values are the predicate proper; refuted theorems show each is needed"
  },
  {
   "property": "C88",
   "status": "proved",
   "theorems": [
    "C88_positions",
    "C88_positions_differ",
    "C88_names",
    "C88_flags",
    "C88_subs",
    "C88_plain_subs",
    "C88_plain",
    "C88_values",
    "C88_order",
    "C88_total",
    "C88_needed",
    "C88_lines",
    "C88_empty_value_refuted",
    "C88_sub_values_refuted"
   ],
   "note": "XPath, regular expressions, JSON and int are oracles; the two refuted theorems are part of the statement"
  },
  {
   "property": "C89",
   "status": "proved",
   "theorems": [
    "C89_sources",
    "C89_concat",
    "C89_range",
    "C89_texts",
    "C89_wildcard",
    "C89_twice_refuted",
    "C89_digits_refuted",
    "C89_whole"
   ],
   "note": "the two refuted theorems are the last sentence of the statement"
  },
  {
   "property": "C90",
   "status": "proved",
   "theorems": [
    "C90_fields",
    "C90_tags",
    "C90_saves",
    "C90_matchers"
   ],
   "note": "composition of C79, C80, C86, C87, C88; searches, XPath, regular expressions and JSON are arguments"
  },
  {
   "property": "C91",
   "status": "proved",
   "theorems": [
    "C91_run",
    "C91_others",
    "C91_works",
    "C91_text",
    "C91_total"
   ],
   "note": "any workers and interleavings; targets read as at the start of the run; parsers and serialiser arbitrary"
  },
  {
   "property": "C92",
   "status": "proved",
   "theorems": [
    "C92_line",
    "C92_reads",
    "C92_unreadable",
    "C92_document",
    "C92_fixable",
    "C92_text",
    "C92_run",
    "C92_others",
    "C92_fails",
    "C92_paths"
   ],
   "note": "all outcomes of a file characterised"
  },
  {
   "property": "C93",
   "status": "partial",
   "theorems": [
    "C93_partial",
    "C93_single",
    "C93_refuted"
   ],
   "note": "a source that is the output of another source is overwritten; otherwise kept"
  },
  {
   "property": "C94",
   "status": "partial",
   "theorems": [
    "C94_partial",
    "C94_refuted",
    "C94_base"
   ],
   "note": "a list of files in the current directory raises"
  },
  {
   "property": "C95",
   "status": "partial",
   "theorems": [
    "C95_parse",
    "C95_full",
    "C95_one",
    "C95_declared",
    "C95_required",
    "C95_next_refuted"
   ],
   "note": "argparse as far as it is used, all eight commands; the last sentence is refuted: a list of fields that starts with a minus sign cannot be the next word"
  },
  {
   "property": "C96",
   "status": "proved",
   "theorems": [
    "C96_options",
    "C96_run_options",
    "C96_named"
   ],
   "note": "all options of all eight commands but those that only choose the sources (C97)"
  },
  {
   "property": "C97",
   "status": "proved",
   "theorems": [
    "C97_lines",
    "C97_text"
   ],
   "note": "an inductive grammar of configuration texts, equivalent to the model of configparser; lower() of a non-empty name is assumed non-empty"
  },
  {
   "property": "C98",
   "status": "partial",
   "theorems": [
    "C98_mapping",
    "C98_segmentation",
    "C98_names_refuted"
   ],
   "note": "both readers characterised completely; that segment names are as written is refuted (names are made lower case)"
  },
  {
   "property": "C99",
   "status": "partial",
   "theorems": [
    "C99_mapping",
    "C99_paths",
    "C99_segments",
    "C99_segments_refuted",
    "C99_readable",
    "C99_saves"
   ],
   "note": "proved for the two files of the repository; every segment has a path is refuted for listBibl"
  },
  {
   "property": "C100",
   "status": "proved",
   "theorems": [
    "C100_start",
    "C100_run",
    "C100_ends",
    "C100_same",
    "C100_shipped",
    "C100_threshold",
    "C100_patterns"
   ],
   "note": "From the command line to the files: how the program starts, what it leaves, that it ends, that its result is determined, and that everything is saved with the shipped configuration."
  },
  {
   "property": "C101",
   "status": "proved",
   "theorems": [
    "C101_search",
    "C101_first",
    "C101_match",
    "C101_all",
    "C101_preferred"
   ],
   "note": "Python's re is a library: the model of it is an assumption; references to groups, look-around and named groups are not supported"
  },
  {
   "property": "C102",
   "status": "proved",
   "theorems": [
    "C102_compile",
    "C102_doi",
    "C102_title",
    "C102_stop",
    "C102_order"
   ],
   "note": "with the model of re of C101"
  },
  {
   "property": "C103",
   "status": "proved",
   "theorems": [
    "C103_pmid",
    "C103_pmid_fix",
    "C103_wos",
    "C103_pmcid",
    "C103_pii_other",
    "C103_pii_valid",
    "C103_doi_url_prefix",
    "C103_repeated_doi",
    "C103_pii_letter_refuted",
    "C103_pii_space_refuted",
    "C103_doi_dot_refuted"
   ],
   "note": "each search finds the first place of a plain description of the identifier; three tempting claims are refuted"
  },
  {
   "property": "C104",
   "status": "proved",
   "theorems": [
    "C104_identifiers",
    "C104_document",
    "C104_text",
    "C104_nested_refuted",
    "C104_again_refuted",
    "C104_quote_refuted",
    "C104_duplicate",
    "C104_pii"
   ],
   "note": "With the patterns as written, for references whose pub-ids hold no elements; the refuted theorems show what fails without this, on a second run, and for titles that begin with double quotes."
  },
  {
   "property": "C105",
   "status": "proved",
   "theorems": [
    "C105_no_space",
    "C105_words",
    "C105_digits",
    "C105_header",
    "C105_ends",
    "C105_starts",
    "C105_dot",
    "C105_placeholders",
    "C105_urls",
    "C105_namespace",
    "C105_namespaces",
    "C105_namespaces_refuted",
    "C105_tag",
    "C105_name",
    "C105_other_name",
    "C105_name_dots_refuted"
   ],
   "note": "the hand written functions equal the regular expressions of the code; two false claims refuted"
  },
  {
   "property": "C106",
   "status": "proved",
   "theorems": [
    "C106_names",
    "C106_tokens",
    "C106_any_word_refuted",
    "C106_heading",
    "C106_label",
    "C106_abstract",
    "C106_other_case",
    "C106_case_refuted",
    "C106_word_refuted",
    "C106_shipped",
    "C106_compiles"
   ],
   "note": "Prefix patterns as written in the code and the shipped configuration; the false claims are refuted separately"
  },
  {
   "property": "C107",
   "status": "proved",
   "theorems": [
    "C107_longest",
    "C107_blocks",
    "C107_contract",
    "C107_whole",
    "C107_short",
    "C107_all",
    "C107_none",
    "C107_none_refuted",
    "C107_separators"
   ],
   "note": "difflib on words as a function: longest matches, maximal ordered blocks, the contract assumed elsewhere; short values are found at whole words; the one false claim (several parts with a dot) is refuted"
  },
  {
   "property": "C108",
   "status": "proved",
   "theorems": [
    "C108_cases",
    "C108_match",
    "C108_no_match",
    "C108_touched",
    "C108_step",
    "C108_step_all",
    "C108_step_none",
    "C108_field",
    "C108_field_later",
    "C108_field_none",
    "C108_sub",
    "C108_text"
   ],
   "note": "for fields without prefix pattern, alternative spellings and sub fields (sub fields: C108_sub); extension to whole lines off in the document theorems"
  },
  {
   "property": "C109",
   "status": "proved",
   "theorems": [
    "C109_declared",
    "C109_start",
    "C109_run",
    "C109_ends",
    "C109_no_base",
    "C109_switches"
   ],
   "note": "under stated assumptions on the options for the cloud (fix_cloud_fresh) and on where sources and outputs are (fix_placed); reading of lists, finding of files and the options for the cloud are parameters"
  },
  {
   "property": "C110",
   "status": "proved",
   "theorems": [
    "C110_declared",
    "C110_start",
    "C110_stops",
    "C110_run",
    "C110_ends",
    "C110_relative_refuted"
   ],
   "note": "the effect of a run under the proviso that making a path absolute twice changes nothing; refuted without it"
  },
  {
   "property": "C111",
   "status": "partial",
   "theorems": [
    "C111_partial",
    "C111_refuted"
   ],
   "note": "false of the code; what holds is stated in C111_partial"
  },
  {
   "property": "C112",
   "status": "proved",
   "theorems": [
    "C112_names",
    "C112_get_set",
    "C112_by_scope",
    "C112_one_value",
    "C112_refines",
    "C112_new",
    "C112_scoped",
    "C112_names_refuted",
    "C112_scope_refuted",
    "C112_level_zero_refuted",
    "C112_simple_scopes_refuted"
   ],
   "note": "the false claims named in the statement are refuted"
  },
  {
   "property": "C113",
   "status": "proved",
   "theorems": [
    "C113_merge",
    "C113_error",
    "C113_tags",
    "C113_same_tokens_refuted"
   ],
   "note": "for simple documents; the two documents share no tokens"
  },
  {
   "property": "C114",
   "status": "proved",
   "theorems": [
    "C114_found",
    "C114_order",
    "C114_once",
    "C114_trail"
   ],
   "note": "for the modelled subset of XPath 1.0"
  },
  {
   "property": "C115",
   "status": "proved",
   "theorems": [
    "C115_fields",
    "C115_all",
    "C115_inner",
    "C115_inner_all"
   ],
   "note": "the mapping as read in C99; XPath as in C114"
  },
  {
   "property": "C116",
   "status": "proved",
   "theorems": [
    "C116_back_titles",
    "C116_back_paragraphs",
    "C116_parts",
    "C116_fulltext",
    "C116_fulltext_fields",
    "C116_back_paragraphs_refuted",
    "C116_body_acknowledgment_refuted",
    "C116_abstract_refuted",
    "C116_ignored_refuted",
    "C116_keywords_refuted",
    "C116_manuscript_type_refuted"
   ],
   "note": "the false claims named in the statement are refuted"
  },
  {
   "property": "C117",
   "status": "proved",
   "theorems": [
    "C117_json",
    "C117_json_one",
    "C117_concat",
    "C117_range"
   ],
   "note": "NaN, Infinity and escaped surrogates are not read by the model"
  },
  {
   "property": "C118",
   "status": "proved",
   "theorems": [
    "C118_concat",
    "C118_range",
    "C118_reads",
    "C118_saves",
    "C118_program"
   ],
   "note": "XPath, JSON and regular expressions as modelled; character functions as usual for ASCII"
  },
  {
   "property": "C119",
   "status": "proved",
   "theorems": [
    "C119_labelled",
    "C119_command"
   ],
   "note": "the annotations of the eight labelled fields of the shipped mapping, for every article"
  },
  {
   "property": "C120",
   "status": "proved",
   "theorems": [
    "C120_order"
   ],
   "note": "order of the annotations of a field"
  },
  {
   "property": "C121",
   "status": "proved",
   "theorems": [
    "C121_texts",
    "C121_command"
   ],
   "note": "text fields of the shipped mapping"
  },
  {
   "property": "C122",
   "status": "proved",
   "theorems": [
    "C122_keywords",
    "C122_list",
    "C122_pages",
    "C122_command"
   ],
   "note": "keywords, lists and page numbers of the shipped mapping"
  },
  {
   "property": "C123",
   "status": "proved",
   "theorems": [
    "C123_words",
    "C123_grammar",
    "C123_unambiguous"
   ],
   "note": "grammar of the XPath subset"
  },
  {
   "property": "C124",
   "status": "proved",
   "theorems": [
    "C124_elements",
    "C124_command"
   ],
   "note": "authors, affiliations and references of the shipped mapping"
  },
  {
   "property": "C125",
   "status": "proved",
   "theorems": [
    "C125_order",
    "C125_article"
   ],
   "note": "Any mapping: every annotation comes from an element its field finds, ordered by priority, document order, number and field; the mapping of the repository: 36 fields, figures and tables first."
  },
  {
   "property": "C126",
   "status": "proved",
   "theorems": [
    "C126_same",
    "C126_rows"
   ],
   "note": "Reports of the search of one value; the file format of the reports and the two constant columns are not modelled."
  },
  {
   "property": "C127",
   "status": "proved",
   "theorems": [
    "C127_read",
    "C127_article",
    "C127_gives"
   ],
   "note": "Reading from local, remote and opened sources through temporary directories; all files are as before afterwards."
  },
  {
   "property": "C128",
   "status": "proved",
   "theorems": [
    "C128_reads",
    "C128_repair",
    "C128_again",
    "C128_names_refuted"
   ],
   "note": "The parser is modelled on plain mark-up only; that Python's HTMLParser behaves so there is an assumption. C128_names_refuted: the natural wish that start tags keep their names is false for names with capital letters."
  },
  {
   "property": "C129",
   "status": "proved",
   "theorems": [
    "C129_reads",
    "C129_unique",
    "C129_groups",
    "C129_template",
    "C129_sub"
   ],
   "note": "for the part of the syntax listed in DESIGN.md section 4"
  },
  {
   "property": "C130",
   "status": "proved",
   "theorems": [
    "C130_matches",
    "C130_missing",
    "C130_errors",
    "C130_first",
    "C130_first_in_document",
    "C130_value_error_refuted"
   ],
   "note": "C130_value_error_refuted: parts of an expression before a slash need not be expressions, so a missing element can be reported by an error of lxml about an expression nobody wrote."
  },
  {
   "property": "C131",
   "status": "proved",
   "theorems": [
    "C131_text",
    "C131_choices",
    "C131_alike",
    "C131_tags"
   ],
   "note": "Reading of texts, the choices and equality of the annotations of documents that read alike."
  },
  {
   "property": "C132",
   "status": "proved",
   "theorems": [
    "C132_read",
    "C132_unique",
    "C132_columns"
   ],
   "note": "The files of match details are read back as the reported rows, in one way only."
  },
  {
   "property": "C133",
   "status": "proved",
   "theorems": [
    "C133_main",
    "C133_outcome",
    "C133_sub_refuted"
   ],
   "note": "C133_main relates two runs over documents that read alike (main tags); C133_outcome: same failures when sub annotations are not used; C133_sub_refuted: the same is false for sub tags, which are searched in the text as written"
  },
  {
   "property": "C134",
   "status": "proved",
   "theorems": [
    "C134_words",
    "C134_unique",
    "C134_same_words",
    "C134_same",
    "C134_search"
   ],
   "note": "own grammar of the words of a text; C134_search states it of the search for one value"
  },
  {
   "property": "C135",
   "status": "proved",
   "theorems": [
    "C135_main",
    "C135_sub",
    "C135_failure_refuted"
   ],
   "note": "C135_main compares the runs with and without sub annotations; C135_sub: sub tags without; C135_failure_refuted: the converse about failures is false"
  },
  {
   "property": "C136",
   "status": "proved",
   "theorems": [
    "C136_tagged"
   ],
   "note": "relation between two runs in which words with a tag are unrelated; targets with an empty name are left out, since setting an empty tag leaves a word untagged"
  },
  {
   "property": "C137",
   "status": "partial",
   "theorems": [
    "C137_below",
    "C137_written",
    "C137_added_refuted"
   ],
   "note": "proved for the tables of all commands; refuted for fields added on the command line, whose names may look like sub tags"
  },
  {
   "property": "C138",
   "status": "proved",
   "theorems": [
    "C138_one",
    "C138_two",
    "C138_expanded",
    "C138_previous",
    "C138_following",
    "C138_sub_fields",
    "C138_no_sub_fields"
   ],
   "note": ""
  },
  {
   "property": "C139",
   "status": "partial",
   "theorems": [
    "C139_previous",
    "C139_following",
    "C139_both",
    "C139_groups",
    "C139_lines_refuted",
    "C139_removal_refuted"
   ],
   "note": "proved for the expansions and for merging groups; refuted for the extension to whole lines and the removal of untagged words"
  },
  {
   "property": "C140",
   "status": "proved",
   "theorems": [
    "C140_end",
    "C140_rest",
    "C140_step",
    "C140_same_block",
    "C140_left"
   ],
   "note": ""
  },
  {
   "property": "C141",
   "status": "partial",
   "theorems": [
    "C141_both",
    "C141_text",
    "C141_kept",
    "C141_kept_refuted",
    "C141_alone",
    "C141_none"
   ],
   "note": "that both quotes are moved is not true of titles without children (C141_text: the right one stays); that a left quote with its right one elsewhere stays is not true of the double typographic quotes (C141_kept_refuted: the table of the code gives the single right quote for them)"
  }
 ]
}
