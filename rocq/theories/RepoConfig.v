(** The configuration files of the repository: config/xml-mapping.conf and
    config/segmentation.conf, as they are. *)
From Verif Require Import Base.
Open Scope string_scope.

Definition xml_mapping_conf : str := u "[article]
# front
title = front/article-meta/title-group/article-title
title.extend-to-line = false

abstract = front/article-meta/abstract
abstract.match-prefix-regex = (abstract|summary)\s*$
abstract.max_chunks = 2

journal = front/journal-meta/journal-title-group/journal-title
issn = front/journal-meta/issn[@pub-id-type=""epub""]
doi = front/article-meta/article-id[@pub-id-type=""doi""]
copyright_statement = front/article-meta/permissions/copyright-statement

keywords_title = front/article-meta/kwd-group/title

keywords = front/article-meta/kwd-group
keywords.children = kwd[@kwd-group-type='author-keywords' or not(@kwd-group-type)]
keywords.children.concat = [[{""xpath"": ""kwd[@kwd-group-type='author-keywords' or not(@kwd-group-type)]""}]]

manuscript_type = front/article-meta/article-categories/subj-group/subject[@subj-group-type=""display-channel""]

author_notes = front/article-meta/author-notes/*

author = front/article-meta/contrib-group/contrib[not(@contrib-type) or @contrib-type=""author""]/name
author.children = .//*
author.bonding = true
author.match-multiple = true
# author.sub.surname = ./surname
# author.sub.givennames = ./given-names
author.merge = true

author_aff =
  front/article-meta/contrib-group/aff
  front/article-meta/contrib-group/contrib/aff
  front/article-meta/aff
author_aff.children = .//*
author_aff.unmatched-parent-text = true
author_aff.bonding = true
author_aff.match-multiple = true
# author_aff.extract-regex = .*\b(\d+)\b.*
author_aff.sub.author_aff-label = ./label
author_aff.sub.author_aff-department = ./addr-line/named-content[@content-type=""department""]
author_aff.sub.author_aff-institution = ./institution
# author_aff.sub.addrline = ./addr-line
# author_aff.sub.addrline.extract-regex = .*\b(\d+)\b.*
author_aff.sub.author_aff-address-city = ./addr-line/named-content[@content-type=""city""]
author_aff.sub.author_aff-address-postcode = ./addr-line/named-content[@content-type=""postcode""]
author_aff.sub.author_aff-address-state = ./addr-line/named-content[@content-type=""state""]
author_aff.sub.author_aff-address-country = ./country
# author_aff.sub.extlink = ./ext-link
author_aff.alternative-spellings =
  United States=USA
author_aff.merge = false

# Note: some JATS XML may omit separators between the label and the other affiliation text
#   this regular expressions is aiming to include the label as well
author_aff.match-prefix-regex = ({author_aff-label})\s*[\.-]*\s*$

email =
  front/article-meta/contrib-group/aff/email
  front/article-meta/contrib-group/contrib/aff/email
  front/article-meta/aff/email

# body

# we want to include the section label in the title, e.g ""1. Introduction""
section_title =
  ./body//sec
  ./back//sec
  ./back//ack
section_title.children = ./title
section_title.children.concat = [[{""xpath"": ""./label""}, {""value"": "" ""}, {""xpath"": ""./title""}]]

section_paragraph =
  (//sec | //ack)/p
  ./body/p
section_paragraph.ignore = .//list|fig|table-wrap
section_paragraph.max_chunks = 2
section_paragraph.sub.section_paragraph-xref-bib = .//xref[@ref-type=""bibr""]
section_paragraph.sub.section_paragraph-xref-figure = .//xref[@ref-type=""fig""]
section_paragraph.sub.section_paragraph-xref-table = .//xref[@ref-type=""table""]
section_paragraph.sub.section_paragraph-xref-formula = .//xref[@ref-type=""disp-formula""]
section_paragraph.sub.section_paragraph-xref-section = .//xref[@ref-type=""sec""]
section_paragraph.sub.section_paragraph-xref-box = .//xref[@ref-type=""boxed-text""]

# for the segmentation model we need separate body and back section, but no granular sub-fields
body_section_title = body//sec/title
back_section_title = back//sec[not(ancestor::ack)]/title

body_section_paragraph = body//p
back_section_paragraph = back//sec[not(ancestor::ack)]/p[not(ancestor::ack)] | back//p[not(ancestor::sec) and not(ancestor::ack)]

acknowledgment_section_title = //ack//title
acknowledgment_section_paragraph = //ack//p

boxed_text_title =
  //boxed-text
boxed_text_title.children = ./label | ./caption
boxed_text_title.children.concat = [[{""xpath"": ""./label""}, {""value"": "" ""}, {""xpath"": ""./caption""}]]

boxed_text_paragraph = //boxed-text//p
boxed_text_paragraph.ignore = .//list|fig|table-wrap
boxed_text_paragraph.max_chunks = 2
boxed_text_paragraph.sub.boxed_text_paragraph-xref-bib = .//xref[@ref-type=""bibr""]
boxed_text_paragraph.sub.boxed_text_paragraph-xref-figure = .//xref[@ref-type=""fig""]
boxed_text_paragraph.sub.boxed_text_paragraph-xref-table = .//xref[@ref-type=""table""]
boxed_text_paragraph.sub.boxed_text_paragraph-xref-formula = .//xref[@ref-type=""disp-formula""]
boxed_text_paragraph.sub.boxed_text_paragraph-xref-section = .//xref[@ref-type=""sec""]
boxed_text_paragraph.sub.boxed_text_paragraph-xref-box = .//xref[@ref-type=""boxed-text""]

list =
  //list
list.children = ./*[not(self::list-item)]
list.ignore = .//fig|table-wrap
list.max_chunks = 2

list_item =
  //list-item
list_item.ignore = .//fig|table-wrap
list_item.max_chunks = 2
list_item.sub.list_item-xref-bib = .//xref[@ref-type=""bibr""]
list_item.sub.list_item-xref-figure = .//xref[@ref-type=""fig""]
list_item.sub.list_item-xref-table = .//xref[@ref-type=""table""]
list_item.sub.list_item-xref-formula = .//xref[@ref-type=""disp-formula""]
list_item.sub.list_item-xref-section = .//xref[@ref-type=""sec""]
list_item.sub.list_item-xref-box = .//xref[@ref-type=""boxed-text""]

appendix_group_title = //app-group/title

appendix = //app

figure = //fig
figure.priority = 1
figure.block = figures
figure.children = ./label | ./caption
figure.children.concat = [[{""xpath"": ""./label""}, {""value"": "" ""}, {""xpath"": ""./caption""}]]
figure.sub.figure-label = ./label
figure.sub.figure-caption = ./caption

# Note: separate ""body_figure"" and ""back_figure"" are used for segmentation model
#   Currently not used, all tables will go into the body.
body_figure = body//fig
body_figure.priority = 1
body_figure.block = figures
body_figure.children = ./label | ./caption
body_figure.children.concat = [[{""xpath"": ""./label""}, {""value"": "" ""}, {""xpath"": ""./caption""}]]

back_figure = back//fig
back_figure.priority = 1
back_figure.block = figures
back_figure.children = ./label | ./caption
back_figure.children.concat = [[{""xpath"": ""./label""}, {""value"": "" ""}, {""xpath"": ""./caption""}]]

table = //table-wrap
table.priority = 1
table.block = figures
table.children = ./label | ./caption
table.children.concat = [[{""xpath"": ""./label""}, {""value"": "" ""}, {""xpath"": ""./caption""}]]
table.sub.table-label = ./label
table.sub.table-caption = ./caption

# Note: separate ""body_table"" and ""back_table"" are used for segmentation model
#   Currently not used, all tables will go into the body.
body_table = body//table-wrap
body_table.priority = 1
body_table.block = figures
body_table.children = ./label | ./caption
body_table.children.concat = [[{""xpath"": ""./label""}, {""value"": "" ""}, {""xpath"": ""./caption""}]]

back_table = back//table-wrap
back_table.priority = 1
back_table.block = figures
back_table.children = ./label | ./caption
back_table.children.concat = [[{""xpath"": ""./label""}, {""value"": "" ""}, {""xpath"": ""./caption""}]]

# back

reference_list_title = back/ref-list/title

reference = back/ref-list/ref
reference.children = .//*
reference.children.concat = [[{""xpath"": "".//fpage""}, {""value"": ""-""}, {""xpath"": "".//lpage""}]]
reference.bonding = true
reference.merge = false
reference.block = references
# sort sub tags in order of priority, more or less based on the lenght
reference.sub.reference-article-title = .//article-title
reference.sub.reference-author = .//string-name[not(ancestor::person-group)]
reference.sub.reference-editor = .//person-group[@person-group-type=""editor""]/string-name
reference.sub.reference-source = .//source
reference.sub.reference-publisher-name = .//publisher-name
reference.sub.reference-publisher-loc = .//publisher-loc
reference.sub.reference-etal = .//etal
reference.sub.reference-issn = .//issn
reference.sub.reference-isbn = .//isbn
reference.sub.reference-doi = .//pub-id[@pub-id-type=""doi""]
reference.sub.reference-pii = .//pub-id[@pub-id-type=""pii""]
reference.sub.reference-pmid = .//pub-id[@pub-id-type=""pmid""]
reference.sub.reference-pmcid = .//pub-id[@pub-id-type=""pmcid""]
reference.sub.reference-arxiv = .//pub-id[@pub-id-type=""arXiv""]
reference.sub.ext-link = .//ext-link
reference.sub.reference-year = .//year
reference.sub.reference-volume = .//volume
reference.sub.reference-issue = .//issue
reference.sub.reference-fpage = .//fpage
reference.sub.reference-lpage = .//lpage
reference.sub.reference-label = ./label

# page

page_no = front/article-meta
page_no.children = fpage|lpage
page_no.children.range = [{
    ""min"": {""xpath"": ""fpage""},
    ""max"": {""xpath"": ""lpage""},
    ""standalone"": true
  }]
".

Definition segmentation_conf : str := u "[tags]
front = title, abstract, keywords_title, keywords, manuscript_type, author, author_aff, author_notes
body = body_section_title, body_section_paragraph, body_figure, body_table, figure, table
acknowledgment = acknowledgment_section_title, acknowledgment_section_paragraph
annex = appendix_group_title, appendix, back_section_title, back_section_paragraph, back_figure, back_table
page = page_no
line_no = line_no
reference = reference_list_title, reference
listBibl = listBibl
".
