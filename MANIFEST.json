{
 "claims": [
  {
   "property": "C01",
   "status": "proved",
   "theorems": [
    "C01_tokenizer_lossless"
   ],
   "note": ""
  },
  {
   "property": "C02",
   "status": "proved",
   "theorems": [
    "C02_token_shape",
    "C02_only_division"
   ],
   "note": ""
  },
  {
   "property": "C03",
   "status": "proved",
   "theorems": [
    "C03_rows_lossless"
   ],
   "note": "All collations with distinct non-empty sigla, any filter, any topological order, no near matching."
  },
  {
   "property": "C04",
   "status": "proved",
   "theorems": [
    "C04_rows_lossless"
   ],
   "note": "Same with segmentation=True."
  },
  {
   "property": "C05",
   "status": "proved",
   "theorems": [
    "C05_table_shape"
   ],
   "note": "All options, including near matching."
  },
  {
   "property": "C06",
   "status": "proved",
   "theorems": [
    "C06_acyclic",
    "C06_acyclic_stages",
    "C06_stages_reach_result",
    "C06_no_cycle_error"
   ],
   "note": "Final graph, every intermediate graph, and no cycle error."
  },
  {
   "property": "C07",
   "status": "proved",
   "theorems": [
    "C07_witness_paths"
   ],
   "note": "Vertices, edges and tokens of the graph are exactly those of the witness paths."
  },
  {
   "property": "C08",
   "status": "proved",
   "theorems": [
    "C08_aligned_tokens_agree",
    "C08_segments_agree"
   ],
   "note": "Unsegmented graph as stated; in addition the segmented graph."
  },
  {
   "property": "C09",
   "status": "proved",
   "theorems": [
    "C09_invariant_columns"
   ],
   "note": "All options."
  },
  {
   "property": "C10",
   "status": "partial",
   "theorems": [
    "C10_variant_partial",
    "C10_variant_refuted",
    "C10_two_witnesses_partial",
    "C10_two_segmented_partial",
    "C10_two_doublets_refuted"
   ],
   "note": "The exact statement is false: two vertices of one rank may carry the same label (three witnesses: C10_variant_refuted; two witnesses with repeated words: C10_two_doublets_refuted). Proved: a variant column has an empty cell or two rows whose tokens are on different vertices; exact for two witnesses where no two neighbouring tokens of the second are equal, without segmentation (C10_two_witnesses_partial) and with it (C10_two_segmented_partial), no near matching or filter."
  },
  {
   "property": "C100",
   "status": "proved",
   "theorems": [
    "C100_size",
    "C100_nothing_in_common"
   ],
   "note": ""
  },
  {
   "property": "C101",
   "status": "proved",
   "theorems": [
    "C101_singles",
    "C101_ends",
    "C101_two"
   ],
   "note": "Converse of C31_threshold: a run that reaches autostep is folded (n >= 3, n <= 1E100, above which folding is off), and no slice with a step could be longer. C101_two: with autostep 2 the first part fails."
  },
  {
   "property": "C102",
   "status": "proved",
   "theorems": [
    "C102_current",
    "C102_old",
    "C102_no_ranges",
    "C102_errors",
    "C102_shapes"
   ],
   "note": "all lists of old ranges, all objects; entries are integer tuples of one of the three shapes"
  },
  {
   "property": "C103",
   "status": "proved",
   "theorems": [
    "C103_depth",
    "C103_size",
    "C103_search"
   ],
   "note": "frames of the callers are not counted; the recursion of json.dumps on nested token properties is not modelled"
  },
  {
   "property": "C104",
   "status": "proved",
   "theorems": [
    "C104_segmented",
    "C104_side_by_side"
   ],
   "note": "Rows, cells and marks of the table with segmentation are given column by column from the pairs of positions, which are those of the table without segmentation of the same witnesses; optimality and the last clause under the stated condition on neighbouring tokens (for which C60_doublets_refuted and C10_two_doublets_refuted show that it is needed)."
  },
  {
   "property": "C105",
   "status": "proved",
   "theorems": [
    "C105_near_table",
    "C105_first_best",
    "C105_keeps_order"
   ],
   "note": "the columns of two witnesses with near matching, for any similarity function; the pairs are those of the table without near matching"
  },
  {
   "property": "C106",
   "status": "proved",
   "theorems": [
    "C106_best_way",
    "C106_every_witness",
    "C106_plain",
    "C106_segmented",
    "C106_near"
   ],
   "note": "The way of the recursion is best, keeps to the order of preference and is the only such way; every further witness is aligned along it (no filter); tables of two witnesses without segmentation, with segmentation and with near matching. More than two witnesses: per step (the ranks of the graph enter), not as a closed form of the table."
  },
  {
   "property": "C107",
   "status": "proved",
   "theorems": [
    "C107_any_table",
    "C107_any_graph",
    "C107_any_segmented",
    "C107_any_segmented_graph",
    "C107_any_texts",
    "C107_any_clear",
    "C107_table",
    "C107_graph",
    "C107_texts",
    "C107_two",
    "C107_three",
    "C107_later_stages",
    "C107_segmented",
    "C107_segmented_graph",
    "C107_segments",
    "C107_segmented_three"
   ],
   "note": "For all collations: the result is that of an alignment obtained by adding the texts one after the other (C107_any_*); C107_any_clear: it is the reference alignment, a function of the texts, if no stage has two nodes at the same place with the same word. C107_ambiguous_refuted (Props_prog.v) shows that in general the choice between such nodes is not the first one."
  },
  {
   "property": "C108",
   "status": "proved",
   "theorems": [
    "C108_table",
    "C108_graph",
    "C108_segmented",
    "C108_segmented_graph",
    "C108_texts",
    "C108_refused",
    "C108_nothing_refused"
   ],
   "note": "The filter's answer must not depend on its second argument; what a filter of both arguments does is C20."
  },
  {
   "property": "C109",
   "status": "proved",
   "theorems": [
    "C109_shared_column",
    "C109_same_side",
    "C109_fenced",
    "C109_row_kept"
   ],
   "note": "any number of witnesses, any similarity and topological order, without segmentation"
  },
  {
   "property": "C11",
   "status": "proved",
   "theorems": [
    "C11_identical_graph",
    "C11_identical_table",
    "C11_identical_succeeds"
   ],
   "note": "Any number of copies, any sequence with repeated tokens, with and without segmentation and near matching; no properties filter."
  },
  {
   "property": "C110",
   "status": "proved",
   "theorems": [
    "C110_passage",
    "C110_segmented",
    "C110_short_refuted"
   ],
   "note": "The condition on the length is needed in some form: a short passage need not be aligned although its words stand nowhere else (C110_short_refuted)."
  },
  {
   "property": "C111",
   "status": "proved",
   "theorems": [
    "C111_pairs",
    "C111_table",
    "C111_beginning",
    "C111_ending",
    "C111_near",
    "C111_near_beginning",
    "C111_near_ending"
   ],
   "note": "tables of the parts, with the columns of the passage between them; without segmentation and filter, with and without near matching"
  },
  {
   "property": "C112",
   "status": "proved",
   "theorems": [
    "C112_entries",
    "C112_consistent",
    "C112_lower_bound",
    "C112_end_refuted"
   ],
   "note": "Both conditions of the statement are proved; C112_end_refuted shows that without the condition on the lengths an entry can be more than the cost."
  },
  {
   "property": "C113",
   "status": "proved",
   "theorems": [
    "C113_same_array",
    "C113_progress",
    "C113_lcp_progress",
    "C113_one_token_refuted",
    "C113_python3_refuted"
   ],
   "note": "As stated; the two refutations show what happens with a single token and where printing fails."
  },
  {
   "property": "C12",
   "status": "partial",
   "theorems": [
    "C12_construction_total",
    "C12_suffix_array_partial",
    "C12_suffix_array_refuted",
    "C12_one_token_refuted"
   ],
   "note": "Proved for every token sequence whose length is not 1. For a one-token sequence the code returns the suffix array [1] instead of [0]; C12_suffix_array_refuted exhibits it."
  },
  {
   "property": "C13",
   "status": "proved",
   "theorems": [
    "C13_lcp_array"
   ],
   "note": ""
  },
  {
   "property": "C14",
   "status": "proved",
   "theorems": [
    "C14_blocks_sound",
    "C14_blocks_maximal"
   ],
   "note": ""
  },
  {
   "property": "C15",
   "status": "proved",
   "theorems": [
    "C15_blocks_complete"
   ],
   "note": ""
  },
  {
   "property": "C16",
   "status": "partial",
   "theorems": [
    "C16_frequency_partial",
    "C16_frequency_refuted",
    "C16_nested",
    "C16_order"
   ],
   "note": "Proved: the frequency is the number of instances of the block, and some block with the same text has all occurrences; occurrences of blocks are nested or apart, and blocks are ordered by their texts. That every block has all occurrences, and that no two blocks share a text, is false: C16_frequency_refuted."
  },
  {
   "property": "C17",
   "status": "proved",
   "theorems": [
    "C17_optimal",
    "C17_usual_score",
    "C17_usual_score_refuted"
   ],
   "note": "Optimality with the scorer's own score, for every stage of every collation; cells match exactly when a vertex of that rank carries the same reading (with a properties filter: only if). C17_usual_score: where no rank matches two neighbouring tokens this is the usual optimal alignment. C17_usual_score_refuted (an extra, not part of the claim): in general the usual score is not maximal."
  },
  {
   "property": "C18",
   "status": "proved",
   "theorems": [
    "C18_collate_succeeds",
    "C18_plain_text"
   ],
   "note": "Includes near matching without segmentation."
  },
  {
   "property": "C19",
   "status": "partial",
   "theorems": [
    "C19_marker_refuted",
    "C19_markers_partial"
   ],
   "note": "Refuted: a token '$0' in a later witness makes collate raise. The partial theorem gives the exact condition under which it fails."
  },
  {
   "property": "C20",
   "status": "partial",
   "theorems": [
    "C20_filter_refuted",
    "C20_filter_partial",
    "C20_reject_all_partial"
   ],
   "note": "Refuted: the filter is asked about the first token of a block, not the token itself. The partial theorem says what is guaranteed."
  },
  {
   "property": "C21",
   "status": "partial",
   "theorems": [
    "C21_token_lost_refuted",
    "C21_order_refuted",
    "C21_two_witnesses_partial",
    "C21_rows_partial",
    "C21_nothing_twice_partial"
   ],
   "note": "Refuted with three witnesses: a token is lost, or two tokens of a row are exchanged. With one or two witnesses rows are complete and in order for every similarity measure. With any number: every token has a column, each cell shows exactly one of the tokens of the witness that have its column, nothing is shown twice, and tokens are lost exactly if two of them have the same column."
  },
  {
   "property": "C22",
   "status": "proved",
   "theorems": [
    "C22_no_result",
    "C22_segmentation_error"
   ],
   "note": "No result ever; the error is SegmentationError on every well-formed collation."
  },
  {
   "property": "C23",
   "status": "proved",
   "theorems": [
    "C23_segmentation",
    "C23_join_terminates"
   ],
   "note": "Termination bound, exactness and maximality."
  },
  {
   "property": "C24",
   "status": "proved",
   "theorems": [
    "C24_rank_longest",
    "C24_order_independent"
   ],
   "note": ""
  },
  {
   "property": "C25",
   "status": "proved",
   "theorems": [
    "C25_transpose",
    "C25_cells"
   ],
   "note": "Vertical JSON succeeds whenever horizontal JSON does, is its transpose and lists the same witnesses in the same order; the entries are null or the token data of the table's cells (distinct, non-empty sigla)."
  },
  {
   "property": "C26",
   "status": "partial",
   "theorems": [
    "C26_csv_refuted",
    "C26_csv_partial",
    "C26_csv_without_cr_partial"
   ],
   "note": "Refuted: io.StringIO(newline=None) turns CR and CR LF inside a text into LF. Proved: an independent csv reader gives back sigla and texts with exactly that replacement; without carriage returns the round trip is exact."
  },
  {
   "property": "C27",
   "status": "proved",
   "theorems": [
    "C27_xml"
   ],
   "note": "An independent XML reader finds one app per column and one rdg per witness with a cell, in siglum order, with the cell's text. XML line-end normalisation by the reader is not part of the statement."
  },
  {
   "property": "C28",
   "status": "proved",
   "theorems": [
    "C28_tei"
   ],
   "note": "Every witness with a token is under exactly one reading, its text stripped; plain text exactly when all witnesses agree; with indent only tabs and line feeds are added."
  },
  {
   "property": "C29",
   "status": "partial",
   "theorems": [
    "C29_separation_refuted",
    "C29_separation_partial"
   ],
   "note": "Refuted for tabs (and line feeds): the code compares with raw strings. Proved: the exact condition for the blank; it includes every reading that ends in a blank."
  },
  {
   "property": "C30",
   "status": "partial",
   "theorems": [
    "C30_contiguous",
    "C30_contiguous_total_partial",
    "C30_round_trip_partial",
    "C30_round_trip_span_partial",
    "C30_empty_refuted",
    "C30_large_refuted",
    "C30_underscores",
    "C30_empty",
    "C30_negative",
    "C30_large",
    "C30_huge",
    "C30_reads_back_iff"
   ],
   "note": "Refuted for the empty set (written as an empty text that cannot be parsed) and for displayed ranges of 10^9 integers and more (add_range refuses them). Proved for every other set of non-negative integers up to 1E100, every padding and every autostep, including that the text is stable. C30_reads_back_iff: the text comes back exactly for the non-empty sets of numbers between 0 and 1E100 without such a range; the other theorems give the exception for every set outside."
  },
  {
   "property": "C31",
   "status": "proved",
   "theorems": [
    "C31_folding_exact",
    "C31_threshold",
    "C31_no_autostep"
   ],
   "note": "For every set and every autostep; also that a slice with a step stands for at least autostep elements."
  },
  {
   "property": "C32",
   "status": "proved",
   "theorems": [
    "C32_edge_labels"
   ],
   "note": ""
  },
  {
   "property": "C33",
   "status": "proved",
   "theorems": [
    "C33_repeatable",
    "C33_effect"
   ],
   "note": "all sessions of add_witness, add_plain_witness and collate calls; topological order and similarity are fixed functions (see C44 for changing orders)"
  },
  {
   "property": "C34",
   "status": "partial",
   "theorems": [
    "C34_first_siglum_partial",
    "C34_duplicate_sigla_refuted",
    "C34_same_row_refuted"
   ],
   "note": "False in general: later duplicates are silently merged and tokens lost; whenever a table comes out, all witnesses with one siglum have one and the same row. Proved: a repeated first siglum is always rejected."
  },
  {
   "property": "C35",
   "status": "proved",
   "theorems": [
    "C35_empty_witness",
    "C35_no_witness"
   ],
   "note": ""
  },
  {
   "property": "C36",
   "status": "partial",
   "theorems": [
    "C36_astar_refuted"
   ],
   "note": "The property is false: astar=True raises TypeError for every collation."
  },
  {
   "property": "C37",
   "status": "partial",
   "theorems": [
    "C37_transpositions_refuted",
    "C37_single_witness_partial"
   ],
   "note": "False for every well-formed collation with two or more witnesses (AttributeError)."
  },
  {
   "property": "C38",
   "status": "partial",
   "theorems": [
    "C38_find_partial",
    "C38_find_refuted",
    "C38_one_token_refuted"
   ],
   "note": "Proved for every text whose length is not one. For a text of exactly one token find returns no position although the token occurs (C38_find_refuted); C38_one_token_refuted says so for all such texts: the suffix array built for them is [1]."
  },
  {
   "property": "C39",
   "status": "proved",
   "theorems": [
    "C39_token_data",
    "C39_near_token_data"
   ],
   "note": "JSON tokens are the user's data plus the two entries; positions distinct. With near matching only the first part (tokens can be lost, C21)."
  },
  {
   "property": "C40",
   "status": "proved",
   "theorems": [
    "C40_representation",
    "C40_unknown_output",
    "C40_defaults",
    "C40_default_layout"
   ],
   "note": "every output name, unknown names, and the default arguments"
  },
  {
   "property": "C41",
   "status": "partial",
   "theorems": [
    "C41_ranges_partial",
    "C41_ranges_refuted"
   ],
   "note": "Proved: one range per occurrence except the last one. The last occurrence is missing for every block (range(start, end) in the code): C41_ranges_refuted."
  },
  {
   "property": "C42",
   "status": "partial",
   "theorems": [
    "C42_empty_siglum_refuted",
    "C42_unnamed_graph_partial",
    "C42_unnamed_table_partial",
    "C42_first_refuted"
   ],
   "note": "Refuted as stated (tokens are dropped). Proved for every collation: against the same collation with an unused name, the same errors, vertices, edges, near matches and tokens of other witnesses; tokens of the unnamed witness are kept exactly on vertices shared with an earlier witness (graphs with all options; tables without near matching); nothing is shown of an unnamed first witness. For non-empty sigla see C03."
  },
  {
   "property": "C43",
   "status": "partial",
   "theorems": [
    "C43_path_partial",
    "C43_empty_refuted"
   ],
   "note": "Refuted when exactly one of the two sequences is empty (IndexError in move_cost); proved in all other cases, with termination."
  },
  {
   "property": "C44",
   "status": "proved",
   "theorems": [
    "C44_order_independent"
   ],
   "note": ""
  },
  {
   "property": "C45",
   "status": "proved",
   "theorems": [
    "C45_near_succeeds",
    "C45_near_columns",
    "C45_near_graph"
   ],
   "note": "For every similarity measure and topological order."
  },
  {
   "property": "C46",
   "status": "proved",
   "theorems": [
    "C46_from_dict",
    "C46_needs_witnesses",
    "C46_errors",
    "C46_no_witnesses",
    "C46_add_witness"
   ],
   "note": "ids are texts and tokens dictionaries here; C98 has data of any JSON type"
  },
  {
   "property": "C47",
   "status": "proved",
   "theorems": [
    "C47_most_similar",
    "C47_one_move",
    "C47_no_move"
   ],
   "note": "the complete run as a relation (candidates, first maximum, re-ranking), and the resulting ranks when one token moves or none"
  },
  {
   "property": "C48",
   "status": "partial",
   "theorems": [
    "C48_operations_partial",
    "C48_comparisons",
    "C48_getitem",
    "C48_getitem_error",
    "C48_union_refuted",
    "C48_split_refuted"
   ],
   "note": "union and symmetric_difference raise AttributeError in Python 3 (set.union of a subclass is a plain set), split raises TypeError for a non-empty set (float slice index); everything else is proved."
  },
  {
   "property": "C49",
   "status": "proved",
   "theorems": [
    "C49_least_cost"
   ],
   "note": "For every match function; the heuristic |y-x| is consistent, so the first time the end node is chosen its score is minimal."
  },
  {
   "property": "C50",
   "status": "partial",
   "theorems": [
    "C50_alignment_partial",
    "C50_complete_partial",
    "C50_identical",
    "C50_superbase",
    "C50_distinct_refuted",
    "C50_superbase_refuted"
   ],
   "note": "Pairs match and run forward, no match of the cheapest path is left out, identical sequences are aligned token by token; refuted: two tokens of the witness can be aligned with one vertex, and tokens get lost from the superbase. C50_superbase says exactly what the new superbase is."
  },
  {
   "property": "C51",
   "status": "proved",
   "theorems": [
    "C51_json_text",
    "C51_collate_json",
    "C51_export_functions",
    "C51_layout",
    "C51_text_layout"
   ],
   "note": "json.dumps is modelled character by character (ensure_ascii=False, sort_keys, indent); floats are not modelled; C51_layout: line breaks and indentation"
  },
  {
   "property": "C52",
   "status": "partial",
   "theorems": [
    "C52_drawing",
    "C52_witness",
    "C52_columns",
    "C52_total",
    "C52_escape_refuted",
    "C52_no_text_refuted"
   ],
   "note": "Proved: nodes, labels, edges, near matches and groups are those of the graph; every witness can be read from the drawing; groups are the table's columns; no exception for tokens with texts. Refuted: different texts look different (ampersands are not escaped); tokens with a normalised form only cannot be drawn with svg. Graphviz itself and the number format of near-match weights are parameters."
  },
  {
   "property": "C53",
   "status": "partial",
   "theorems": [
    "C53_xml_partial",
    "C53_xml_without_cr_partial",
    "C53_tei_partial",
    "C53_tei_plain_partial",
    "C53_cr_refuted",
    "C53_sigla_refuted"
   ],
   "note": "Proved: exactly which characters change (line ends in texts; in TEI also tabs and line ends in sigla, to blanks); without CR in texts and white space in sigla the parser reports the table, and the sigla of a TEI reading are found by cutting at blanks. Refuted in general: a CR in a text is lost; a siglum with a blank looks like two witnesses."
  },
  {
   "property": "C54",
   "status": "partial",
   "theorems": [
    "C54_html2_partial",
    "C54_total",
    "C54_hyphen_refuted",
    "C54_markup_refuted"
   ],
   "note": "Proved for texts and sigla without &, < and >: the page read by the HTML/XML reader is exactly the table described. Refuted: without that restriction (texts are not escaped: a text can add cells) and 'different alignments look different' (a hyphen token looks like an absent word)."
  },
  {
   "property": "C55",
   "status": "partial",
   "theorems": [
    "C55_horizontal_partial",
    "C55_vertical_partial",
    "C55_total",
    "C55_hyphen_refuted"
   ],
   "note": "The rows/columns handed to PrettyTable are proved to be exactly the table; PrettyTable's own drawing is not modelled. 'Different alignments print differently' is refuted."
  },
  {
   "property": "C56",
   "status": "partial",
   "theorems": [
    "C56_contents_partial",
    "C56_sharing_refuted",
    "C56_effect",
    "C56_entries",
    "C56_again"
   ],
   "note": "False as stated: a dictionary object given for two tokens makes collate raise, whatever the rest of the input (C56_sharing_refuted). Proved: without sharing the answer is that for the contents, the effect on the caller's objects is two entries with known values, and a second call answers the same."
  },
  {
   "property": "C57",
   "status": "proved",
   "theorems": [
    "C57_only_token_strings",
    "C57_graph",
    "C57_kahn"
   ],
   "note": "Relates two runs for arbitrary token data. The topological sort is any function of nodes and edges; C57_kahn shows the modelled networkx sort is one. C57_no_filter: without a filter the condition on answers holds; C57_filter_matters: with one it is needed."
  },
  {
   "property": "C58",
   "status": "proved",
   "theorems": [
    "C58_entry_order",
    "C58_no_filter"
   ],
   "note": "Relates two runs. Equality of values is same_value of JsonSpec, with distinct keys in every dictionary. Tables and graphs are compared token by token, the data of a token by its JSON text."
  },
  {
   "property": "C59",
   "status": "partial",
   "theorems": [
    "C59_from_json",
    "C59_dumps",
    "C59_bad_text",
    "C59_not_object",
    "C59_string_refuted"
   ],
   "note": "The file part holds for every text the JSON reader of JsonSpec accepts (integers are the only numbers). The part about strings is false: json.load calls read(), so a string raises AttributeError."
  },
  {
   "property": "C60",
   "status": "partial",
   "theorems": [
    "C60_two_witnesses",
    "C60_exchange",
    "C60_doublets_refuted",
    "C60_exchange_refuted"
   ],
   "note": "Layout proved for all pairs of witnesses; optimality and symmetry proved where no two neighbouring tokens of the second (both) witnesses are equal, refuted otherwise: a further token that matches the same rank as the one before is scored as a match (calculate_from_upper)."
  },
  {
   "property": "C61",
   "status": "partial",
   "theorems": [
    "C61_omissions",
    "C61_additions",
    "C61_additions_refuted"
   ],
   "note": "Omissions proved without condition, additions where no two neighbouring tokens of the longer witness are equal; refuted otherwise."
  },
  {
   "property": "C62",
   "status": "proved",
   "theorems": [
    "C62_renaming",
    "C62_graph",
    "C62_kahn",
    "C62_csv",
    "C62_json",
    "C62_empty_refuted"
   ],
   "note": "The condition on empty names is necessary (C62_empty_refuted)."
  },
  {
   "property": "C63",
   "status": "proved",
   "theorems": [
    "C63_tokens",
    "C63_white_space",
    "C63_every_text",
    "C63_leading_refuted"
   ],
   "note": "The restriction to texts that do not begin with white space is necessary (C63_leading_refuted)."
  },
  {
   "property": "C64",
   "status": "proved",
   "theorems": [
    "C64_stage_only_earlier",
    "C64_grows",
    "C64_further_witnesses",
    "C64_first_two",
    "C64_alignment_kept",
    "C64_ambiguous_refuted",
    "C64_columns_refuted"
   ],
   "note": "Without segmentation, near matching and properties filter. The condition on ties is part of the statement; the refutations show that it, and the restriction to tokens on one vertex, are needed."
  },
  {
   "property": "C65",
   "status": "proved",
   "theorems": [
    "C65_instances",
    "C65_depth",
    "C65_text_depth",
    "C65_depth_refuted",
    "C65_instance_tokens",
    "C65_instance_tokens_refuted"
   ],
   "note": "The refutations are the boundaries named in the statement."
  },
  {
   "property": "C66",
   "status": "proved",
   "theorems": [
    "C66_alignment",
    "C66_fewer_columns",
    "C66_columns_refuted"
   ],
   "note": "Without near matching (which excludes segmentation)."
  },
  {
   "property": "C67",
   "status": "proved",
   "theorems": [
    "C67_no_new_vertices",
    "C67_excerpt_reads",
    "C67_table",
    "C67_segmentation_refuted"
   ],
   "note": "Without properties filter and segmentation; the table statement assumes unambiguous stages (see C64)."
  },
  {
   "property": "C68",
   "status": "proved",
   "theorems": [
    "C68_words",
    "C68_two_witnesses",
    "C68_ambiguous_refuted"
   ],
   "note": "Unconditional for two witnesses; for more witnesses under the restriction in the statement, which C68_ambiguous_refuted shows to be needed (the alphabetical order of words decides between two vertices with the same reading and rank)."
  },
  {
   "property": "C69",
   "status": "proved",
   "theorems": [
    "C69_handed_on",
    "C69_taken_over",
    "C69_autostep",
    "C69_striter",
    "C69_contiguous"
   ],
   "note": "Minus sign and digits are assumed not to be white space, as in Python."
  },
  {
   "property": "C70",
   "status": "partial",
   "theorems": [
    "C70_pickle_partial",
    "C70_pickle_refuted",
    "C70_pickle_iff",
    "C70_pickle_raises"
   ],
   "note": "True for non-empty sets of non-negative integers whose displayed ranges span less than 10^9; the empty set, sets with negative integers and larger ranges cannot be unpickled (refuted). C70_pickle_iff and C70_pickle_raises say this for every set."
  },
  {
   "property": "C71",
   "status": "proved",
   "theorems": [
    "C71_updaten",
    "C71_updaten_total",
    "C71_fromlist",
    "C71_fromone",
    "C71_slices",
    "C71_slice_plain"
   ],
   "note": ""
  },
  {
   "property": "C72",
   "status": "proved",
   "theorems": [
    "C72_ending",
    "C72_segmented",
    "C72_doubled_refuted"
   ],
   "note": "The refutation shows that the condition on doubled words cannot be dropped."
  },
  {
   "property": "C73",
   "status": "proved",
   "theorems": [
    "C73_beginning",
    "C73_segmented",
    "C73_recurring_refuted"
   ],
   "note": "The refutation shows that the condition on recurring words cannot be dropped."
  },
  {
   "property": "C74",
   "status": "proved",
   "theorems": [
    "C74_ranges",
    "C74_markers",
    "C74_unknown"
   ],
   "note": "positions, markers and unknown sigla"
  },
  {
   "property": "C75",
   "status": "proved",
   "theorems": [
    "C75_json_again",
    "C75_input_exists",
    "C75_fixed_point",
    "C75_made_added",
    "C75_made_data"
   ],
   "note": "near matching and vertical layout of the first collation excluded: near matching can drop tokens (C21), and the vertical layout holds columns"
  },
  {
   "property": "C76",
   "status": "proved",
   "theorems": [
    "C76_total",
    "C76_words",
    "C76_stretch",
    "C76_whole",
    "C76_characters",
    "C76_counts",
    "C76_decode"
   ],
   "note": "UNIT_CHARACTER needs byte strings, which are not modelled; with str it raises AttributeError (C76_decode)"
  },
  {
   "property": "C77",
   "status": "partial",
   "theorems": [
    "C77_find_partial",
    "C77_lookup_partial",
    "C77_lookup_refuted",
    "C77_added",
    "C77_added_sa",
    "C77_parameters_refuted",
    "C77_table_partial",
    "C77_table_refuted"
   ],
   "note": "false of the code: lookup of a feature made by addFeature at the first suffix gives the default, parameters pos and iSA raise AttributeError, the table from a later row shows wrong features; texts of one token excluded because of C12"
  },
  {
   "property": "C78",
   "status": "partial",
   "theorems": [
    "C78_gzip_partial",
    "C78_plain_refuted",
    "C78_lookup_refuted"
   ],
   "note": "false of the code for file names without .gz (TypeError) and for lookups of features made by addFeature; proved for the rest"
  },
  {
   "property": "C79",
   "status": "proved",
   "theorems": [
    "C79_found",
    "C79_not_found",
    "C79_oldest",
    "C79_ends",
    "C79_segments",
    "C79_start_refuted",
    "C79_segments_refuted"
   ],
   "note": "The statement excludes what the two refutations show: a token 'start' is hidden by the start vertex, and with segmentation a single reading of a longer segment is not found."
  },
  {
   "property": "C80",
   "status": "proved",
   "theorems": [
    "C80_edge_between",
    "C80_no_dead_ends"
   ],
   "note": "All options of collate."
  },
  {
   "property": "C81",
   "status": "partial",
   "theorems": [
    "C81_phrases_exist",
    "C81_matches_partial",
    "C81_single_partial",
    "C81_graphs",
    "C81_matches_refuted"
   ],
   "note": "The number of phrase matches is right, but in Python 3 the zip objects share two list objects that are emptied and refilled, so every match reads as the last phrase (or as nothing when the last token is not linked). True for a single phrase that reaches the end of the witness; refuted in general."
  },
  {
   "property": "C82",
   "status": "partial",
   "theorems": [
    "C82_none_partial",
    "C82_transpositions_refuted",
    "C82_type_error"
   ],
   "note": "Without phrase matches the result is []; with any it raises (TypeError on graphs of collate): sorted has no cmp in Python 3."
  },
  {
   "property": "C83",
   "status": "partial",
   "theorems": [
    "C83_match",
    "C83_unprepared",
    "C83_near",
    "C83_selection",
    "C83_selection_refuted"
   ],
   "note": "With given non-overlapping blocks everything is proved. False: the scorer's own selection of blocks raises an AttributeError exactly when some word occurs twice (C83_selection)."
  },
  {
   "property": "C84",
   "status": "partial",
   "theorems": [
    "C84_threads",
    "C84_only_index_error",
    "C84_two_partial",
    "C84_three_refuted",
    "C84_acyclic_refuted",
    "C84_always_raises_refuted"
   ],
   "note": "Whenever collate returns, every witness is threaded through the graph (any scorer). False: the aligner as constructed always raises; with a working scorer three one-word witnesses give an IndexError and repeated words give cycles."
  },
  {
   "property": "C85",
   "status": "proved",
   "theorems": [
    "C85_at_least",
    "C85_at_most",
    "C85_nothing_in_common",
    "C85_one_segment_each"
   ],
   "note": "near matching is excluded; it keeps the number of columns (C45)"
  },
  {
   "property": "C86",
   "status": "proved",
   "theorems": [
    "C86_not_narrower",
    "C86_first_two",
    "C86_ambiguous_refuted"
   ],
   "note": "the condition on ties is part of the statement; C86_ambiguous_refuted shows that it is needed: with a tie a further witness can make the table narrower"
  },
  {
   "property": "C87",
   "status": "partial",
   "theorems": [
    "C87_copy_row_partial",
    "C87_copy_refuted",
    "C87_next_copy_refuted",
    "C87_order_refuted"
   ],
   "note": "The full statement is refuted: the copy of a witness can be aligned with other occurrences of its words, even immediately after its original, and exchanging two witnesses can change the number of columns. Proved: the row is the same if the words of the original stand in no other column."
  },
  {
   "property": "C88",
   "status": "proved",
   "theorems": [
    "C88_no_two_agreements",
    "C88_alternate",
    "C88_as_many",
    "C88_three_refuted"
   ],
   "note": "Near matching off. C88_three_refuted shows that the alternation is special to two witnesses, as the statement says."
  },
  {
   "property": "C89",
   "status": "proved",
   "theorems": [
    "C89_one_replaced",
    "C89_edits",
    "C89_doublets_refuted"
   ],
   "note": "Without near matching, segmentation and property filter; the condition on equal neighbours is part of the statement and C89_doublets_refuted shows that it is needed."
  },
  {
   "property": "C90",
   "status": "proved",
   "theorems": [
    "C90_stranger",
    "C90_first_two",
    "C90_ambiguous_refuted"
   ],
   "note": "without segmentation, near matching and filter; the condition on ties is part of the statement, the refutation shows that it is needed"
  },
  {
   "property": "C91",
   "status": "proved",
   "theorems": [
    "C91_accept_all",
    "C91_accept_all_result",
    "C91_marker_refuted",
    "C91_accept_none",
    "C91_accept_none_segments"
   ],
   "note": "C91_marker_refuted is the exception named in the statement"
  },
  {
   "property": "C92",
   "status": "partial",
   "theorems": [
    "C92_document",
    "C92_again",
    "C92_html2",
    "C92_same_text_refuted",
    "C92_short_columns",
    "C92_no_cells",
    "C92_list",
    "C92_link"
   ],
   "note": "Proved for rows with different strings or without per-column attributes; for equal strings in a row with per-column attributes the property is false of the code (C92_same_text_refuted). Rows are lists (a generator has no index method)."
  },
  {
   "property": "C93",
   "status": "partial",
   "theorems": [
    "C93_equal",
    "C93_same_text",
    "C93_texts",
    "C93_hash_refuted",
    "C93_lower_end",
    "C93_debug",
    "C93_prefixes"
   ],
   "note": "Equal hash values are proved for equal padding and autostep; without that the claim is false of the code (C93_hash_refuted). The texts of RangeSets are those of C30, with its bounds."
  },
  {
   "property": "C94",
   "status": "proved",
   "theorems": [
    "C94_texts",
    "C94_exactly",
    "C94_html2",
    "C94_printed",
    "C94_svg"
   ],
   "note": "The outputs that need no texts: C18 and C52_total. str() of a 't' that is not a text (xml only) is outside the model."
  },
  {
   "property": "C95",
   "status": "proved",
   "theorems": [
    "C95_witnesses_between",
    "C95_collate"
   ],
   "note": "every graph and ranking; the dictionary keys of the tokens are taken as a set"
  },
  {
   "property": "C96",
   "status": "proved",
   "theorems": [
    "C96_same_element",
    "C96_elements",
    "C96_set_in_set",
    "C96_errors",
    "C96_discard_refuted",
    "C96_striter",
    "C96_striter_empties",
    "C96_operators",
    "C96_comparisons",
    "C96_operators_sets",
    "C96_in_place"
   ],
   "note": "everything proved but what the comment in discard says of other types (C96_discard_refuted); |, ^ with a set raise AttributeError (C48_union_refuted)"
  },
  {
   "property": "C97",
   "status": "proved",
   "theorems": [
    "C97_cut",
    "C97_added",
    "C97_run"
   ],
   "note": ""
  },
  {
   "property": "C98",
   "status": "proved",
   "theorems": [
    "C98_made",
    "C98_errors",
    "C98_entry",
    "C98_usual",
    "C98_collate_reads",
    "C98_usable",
    "C98_usual_start"
   ],
   "note": "AnyDataModel.v. Slicing an object for the list of witnesses raises TypeError before Python 3.12 and KeyError since: the model has TypeError. JSON floats are not in jval (they behave as integers here). Keys of objects are assumed to occur once, as in every parsed dictionary."
  },
  {
   "property": "C99",
   "status": "proved",
   "theorems": [
    "C99_not_wider",
    "C99_far_left",
    "C99_near_refuted"
   ],
   "note": "The part about the left is for tables without near matching, as stated; C99_near_refuted shows that it fails with near matching."
  }
 ]
}
