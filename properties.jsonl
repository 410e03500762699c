{"id": "C01", "title": "Default tokenizer is lossless", "statement": "For a witness added from plain text, the 't' values of its tokens, concatenated in order, are exactly the text that was given.", "quantifier": "every text (any length, any characters, any classification of characters into word/space characters)", "why_tests_cant": "The texts are unbounded; a regex that drops or duplicates one character shows only on inputs that hit the boundary between its two alternatives.", "anchors": ["collatex-pythonport/collatex/core_classes.py:WordPunctuationTokenizer.tokenize", "collatex-pythonport/collatex/core_classes.py:Witness.__init__"]}
{"id": "C02", "title": "Token shape and normalisation", "statement": "Every token of a plain-text witness is non-empty and is either a run of word characters followed by all the white space after it, or a run of non-word characters that extends to the next word character or the end; its 'n' value is its 't' value without the trailing white space (nothing else is removed).", "quantifier": "every text and every token position in it", "why_tests_cant": "Maximality and 'nothing else is removed' are statements about all positions of all texts.", "anchors": ["collatex-pythonport/collatex/core_classes.py:WordPunctuationTokenizer.tokenize", "collatex-pythonport/collatex/core_classes.py:Witness.__init__"]}
{"id": "C03", "title": "Table rows are lossless (no segmentation)", "statement": "In the table returned by collate(..., segmentation=False), reading one witness's row from left to right and skipping empty cells gives exactly that witness's tokens: none lost, none duplicated, none reordered, none from another witness.", "quantifier": "every collation with distinct, non-empty sigla, non-empty witnesses and no token equal to an internal marker; every topological order networkx may pick", "why_tests_cant": "It is an invariant of the whole pipeline (suffix array, blocks, dynamic programming, graph merging, ranking, table) over all token sequences.", "anchors": ["collatex-pythonport/collatex/core_functions.py:collate", "collatex-pythonport/collatex/edit_graph_aligner.py:EditGraphAligner.collate", "collatex-pythonport/collatex/core_classes.py:CollationAlgorithm.merge", "collatex-pythonport/collatex/core_classes.py:AlignmentTable._construct_table"]}
{"id": "C04", "title": "Table rows are lossless (with segmentation)", "statement": "The same as the previous property for segmentation=True (the default): joining parallel segments never loses, duplicates or reorders a token.", "quantifier": "every collation as above", "why_tests_cant": "join() mutates the graph in place in a data-dependent traversal order and copies only the first token of each joined vertex; whether that ever drops a token depends on the traversal history.", "anchors": ["collatex-pythonport/collatex/core_classes.py:join", "collatex-pythonport/collatex/core_classes.py:join_vertex_and_join_candidate", "collatex-pythonport/collatex/core_functions.py:collate"]}
{"id": "C05", "title": "Table shape", "statement": "The table has one row per witness, in the order the witnesses were added, headed by its siglum; every row has exactly as many cells as there are columns; a cell is None or a non-empty token list; no column is empty for all witnesses.", "quantifier": "every collation as above, with and without segmentation", "why_tests_cant": "Rectangularity and absence of empty columns must hold for every graph shape.", "anchors": ["collatex-pythonport/collatex/core_classes.py:AlignmentTable._construct_table", "collatex-pythonport/collatex/core_classes.py:Row", "collatex-pythonport/collatex/core_classes.py:Column"]}
{"id": "C06", "title": "The variant graph is acyclic", "statement": "The variant graph returned by collate is a directed acyclic graph at every stage, before and after segmentation, so ranking never fails with 'Graph contains a cycle'.", "quantifier": "every collation, every number of witnesses, after each merge step", "why_tests_cant": "Cycles could only arise from particular interactions of repeated tokens across several witnesses.", "anchors": ["collatex-pythonport/collatex/edit_graph_aligner.py:EditGraphAligner.collate", "collatex-pythonport/collatex/edit_graph_aligner.py:EditGraphAligner.align_matching_tokens", "collatex-pythonport/collatex/core_classes.py:CollationAlgorithm.merge"]}
{"id": "C07", "title": "Every witness is a path of the graph", "statement": "For each witness the graph has a path from start to end whose vertices carry, for that siglum, exactly the witness's tokens in order; every vertex and every edge lies on such a path; start and end carry no tokens.", "quantifier": "every collation", "why_tests_cant": "A history property: later merges must not disturb the paths of earlier witnesses.", "anchors": ["collatex-pythonport/collatex/core_classes.py:CollationAlgorithm.merge", "collatex-pythonport/collatex/core_classes.py:VariantGraph", "collatex-pythonport/collatex/core_classes.py:join"]}
{"id": "C08", "title": "Aligned tokens agree", "statement": "Tokens of different witnesses placed on the same vertex of the (unsegmented) variant graph have the same normalised string, which is the vertex's label.", "quantifier": "every collation without a properties filter or with any filter", "why_tests_cant": "Depends on the correctness of blocks computed from the LCP array for all token sequences.", "anchors": ["collatex-pythonport/collatex/edit_graph_aligner.py:MatchCube", "collatex-pythonport/collatex/tokenindex.py:TokenIndex.split_lcp_array_into_intervals", "collatex-pythonport/collatex/block.py:Block.get_all_instances"]}
{"id": "C09", "title": "Invariant columns are invariant", "statement": "If a column of the table is not marked as variant, then every witness has a cell in that column and the normalised readings of all these cells are equal, token by token.", "quantifier": "every collation, with and without segmentation", "why_tests_cant": "Quantifies over all columns of all tables.", "anchors": ["collatex-pythonport/collatex/core_classes.py:AlignmentTable._construct_table"]}
{"id": "C10", "title": "Variant status is exact", "statement": "A column is marked variant only if some witness has no token there or two witnesses differ in normalised reading.", "quantifier": "every collation", "why_tests_cant": "A single counterexample with a particular merge history refutes it; example tests cannot establish it.", "anchors": ["collatex-pythonport/collatex/core_classes.py:AlignmentTable._construct_table"]}
{"id": "C11", "title": "Identical witnesses", "statement": "Collating any number of witnesses with the same token strings gives a graph that is a single path; without segmentation there is one column per token, with segmentation exactly one column, and no column is variant.", "quantifier": "every non-empty token sequence and every number of copies, including sequences with repeated tokens", "why_tests_cant": "Needs completeness of the suffix array and of the block detection, and uniqueness of the optimal alignment, for all sequences.", "anchors": ["collatex-pythonport/collatex/edit_graph_aligner.py:EditGraphAligner.fill_needleman_wunsch_table", "collatex-pythonport/collatex/linsuffarr.py:_suffixArrayWithTrace", "collatex-pythonport/collatex/tokenindex.py:TokenIndex"]}
{"id": "C12", "title": "Suffix array is correct", "statement": "SuffixArray(tokens).SA lists every position of the token sequence exactly once, in the lexicographic order of the suffixes starting there, and its construction performs no out-of-range access.", "quantifier": "every token sequence of every length and vocabulary", "why_tests_cant": "The recursive linear-time construction has many index cases (length mod 3, recursion depth, ties) that cannot be enumerated.", "anchors": ["collatex-pythonport/collatex/linsuffarr.py:_radixPass", "collatex-pythonport/collatex/linsuffarr.py:_suffixArrayWithTrace", "collatex-pythonport/collatex/linsuffarr.py:SuffixArray.__init__"]}
{"id": "C13", "title": "LCP array is correct", "statement": "_LCP_values[i] is the length of the longest common prefix of the i-th and (i-1)-th suffixes in suffix-array order, and 0 for i=0.", "quantifier": "every token sequence", "why_tests_cant": "Universally quantified over sequences and positions.", "anchors": ["collatex-pythonport/collatex/linsuffarr.py:_longestCommonPrefix", "collatex-pythonport/collatex/linsuffarr.py:LCP"]}
{"id": "C14", "title": "Blocks are sound", "statement": "All instances of a block occupy pairwise equal token strings over the whole block length, lie inside the token array, and there are at least two of them.", "quantifier": "every collation", "why_tests_cant": "Depends on the stack discipline of the interval scan for all LCP arrays.", "anchors": ["collatex-pythonport/collatex/tokenindex.py:TokenIndex.split_lcp_array_into_intervals", "collatex-pythonport/collatex/block.py:Block.get_all_instances"]}
{"id": "C15", "title": "Blocks are complete", "statement": "Whenever the same token string occurs at two positions, some block has instances at both; its length is the full common length of the two occurrences.", "quantifier": "every pair of positions of every token array", "why_tests_cant": "Universally quantified over positions; needs the sortedness of the suffix array.", "anchors": ["collatex-pythonport/collatex/tokenindex.py:TokenIndex.split_lcp_array_into_intervals", "collatex-pythonport/collatex/linsuffarr.py:SuffixArray"]}
{"id": "C16", "title": "Block frequency is the number of occurrences", "statement": "A block's frequency counts all occurrences of its text in the token array, and no two blocks describe the same text. The occurrences of two blocks are nested or they have none in common, and one block is less than another exactly if the texts from its occurrences all come before those from the other's.", "quantifier": "every collation", "why_tests_cant": "Example tests assert a few blocks only.", "anchors": ["collatex-pythonport/collatex/tokenindex.py:TokenIndex.split_lcp_array_into_intervals", "collatex-pythonport/collatex/block.py:Block.get_frequency", "collatex-pythonport/collatex/block.py:Block.__lt__"]}
{"id": "C17", "title": "Alignment is optimal", "statement": "For each added witness the chosen alignment has the maximal score (match +1, gap/mismatch -1 as the scorer defines it) over all monotone alignments of the witness against the ranks of the graph; a cell counts as a match exactly when a vertex of that rank carries the same normalised token. Of equally good ways to a place the one ending with a pair is preferred to one ending with an omission, and that to one ending with an addition.", "quantifier": "every pair of graph and witness", "why_tests_cant": "The space of alignments is exponential and unbounded.", "anchors": ["collatex-pythonport/collatex/edit_graph_aligner.py:EditGraphAligner.fill_needleman_wunsch_table", "collatex-pythonport/collatex/edit_graph_aligner.py:Scorer", "collatex-pythonport/collatex/edit_graph_aligner.py:ScoreIterator", "collatex-pythonport/collatex/edit_graph_aligner.py:MatchCube"]}
{"id": "C18", "title": "Collation never fails on well-formed input", "statement": "collate (default aligner) returns a result, raising no exception (no KeyError, IndexError, 'Vertex is null', cycle error) for every collation with at least one witness, distinct non-empty sigla, no empty witness and no token string equal to an internal marker '$k'; plain-text witnesses never produce such a token.", "quantifier": "every such collation, every supported option combination without near matching", "why_tests_cant": "Absence of exceptions is a universal statement about internal lookups.", "anchors": ["collatex-pythonport/collatex/core_functions.py:collate", "collatex-pythonport/collatex/edit_graph_aligner.py:EditGraphAligner.collate", "collatex-pythonport/collatex/tokenindex.py:TokenIndex.prepare"]}
{"id": "C19", "title": "Pre-tokenised input cannot clash with internal markers", "statement": "Any token strings a user supplies are collated like any others (the marker tokens inserted between witnesses are never confused with user tokens).", "quantifier": "every pre-tokenised collation", "why_tests_cant": "Only a special token string exposes it.", "anchors": ["collatex-pythonport/collatex/tokenindex.py:TokenIndex._prepare_token_array", "collatex-pythonport/collatex/edit_graph_aligner.py:MatchCube.__init__"]}
{"id": "C20", "title": "Properties filter is respected", "statement": "With a properties_filter, two tokens end up on the same vertex through the aligner only if the filter accepts (the data of) the witness token and the data of a graph token of that vertex at the same place.", "quantifier": "every filter and every collation", "why_tests_cant": "Quantifies over all user-supplied predicates.", "anchors": ["collatex-pythonport/collatex/edit_graph_aligner.py:MatchCube.__init__"]}
{"id": "C21", "title": "Near matching keeps all tokens", "statement": "With near_match=True (segmentation=False) every row still reproduces its witness: near matching only moves tokens to other columns, preserving order and losing nothing.", "quantifier": "every collation and every similarity measure", "why_tests_cant": "Token loss needs a vertex with several successors at different ranks; the unit tests use two or three short witnesses.", "anchors": ["collatex-pythonport/collatex/near_matching.py:perform_near_match", "collatex-pythonport/collatex/core_classes.py:VariantGraphRanking.of"]}
{"id": "C22", "title": "Near matching and segmentation exclude each other", "statement": "collate(..., near_match=True, segmentation=True) raises SegmentationError and returns no result, whatever the output format.", "quantifier": "every well-formed collation and every output option", "why_tests_cant": "Universal over inputs and options.", "anchors": ["collatex-pythonport/collatex/core_functions.py:collate"]}
{"id": "C23", "title": "Segmentation terminates and is maximal", "statement": "join() terminates on every variant graph, within a number of steps linear in the number of vertices and edges, and afterwards no two vertices remain that could still be joined (single successor / single predecessor, excluding start and end); it joins nothing else.", "quantifier": "every variant graph built by the aligner", "why_tests_cant": "The code carries a FIXME about running out of memory; termination is a universal statement.", "anchors": ["collatex-pythonport/collatex/core_classes.py:join"]}
{"id": "C24", "title": "Rank is the longest distance from start", "statement": "The ranking assigns to each vertex the length of the longest path from start to it: it is strictly increasing along edges, start has rank 0, end is alone on the highest rank, and the ranks in use are contiguous, independently of the topological order chosen.", "quantifier": "every variant graph and every topological order", "why_tests_cant": "Universal over graphs and orders.", "anchors": ["collatex-pythonport/collatex/core_classes.py:VariantGraphRanking.of"]}
{"id": "C25", "title": "Vertical JSON is the transpose of horizontal JSON", "statement": "For one collation, the vertical JSON table is the transpose of the horizontal one and lists the same witnesses in the same order.", "quantifier": "every table", "why_tests_cant": "Universal over tables.", "anchors": ["collatex-pythonport/collatex/core_functions.py:export_alignment_table_as_json", "collatex-pythonport/collatex/core_functions.py:export_alignment_table_as_vertical_json"]}
{"id": "C26", "title": "CSV/TSV export round-trips", "statement": "Parsing the csv (tsv) output with a standard csv reader gives back the sigla and the cell texts, with the empty string for empty cells, for all token texts.", "quantifier": "every table and every text in it, including delimiters, quotes and line breaks", "why_tests_cant": "A codec property over all strings.", "anchors": ["collatex-pythonport/collatex/display_module.py:display_alignment_table_as_csv", "collatex-pythonport/collatex/core_classes.py:Row.to_list_of_strings"]}
{"id": "C27", "title": "XML export is faithful", "statement": "In the xml export each column becomes one app element with one rdg per witness that has a token, in siglum order; unescaping the rdg text gives the cell's text and the escaped text contains no markup characters.", "quantifier": "every table and every text", "why_tests_cant": "A codec property over all strings.", "anchors": ["collatex-pythonport/collatex/core_functions.py:export_alignment_table_as_xml"]}
{"id": "C28", "title": "TEI export groups readings faithfully", "statement": "In the TEI export each witness with a token in a column is listed under exactly one reading, which is its text stripped of surrounding white space; plain text is emitted only for columns where all witnesses have the same reading.", "quantifier": "every table and every text", "why_tests_cant": "Universal over tables and strings.", "anchors": ["collatex-pythonport/collatex/core_functions.py:export_alignment_table_as_tei"]}
{"id": "C29", "title": "TEI export keeps word separation", "statement": "If some reading in a column ends in white space (blank, tab or line feed), a separating blank is emitted after that column, so that words do not run together.", "quantifier": "every table and every text", "why_tests_cant": "Only texts with tabs or line breaks expose the defect.", "anchors": ["collatex-pythonport/collatex/core_functions.py:export_alignment_table_as_tei"]}
{"id": "C30", "title": "RangeSet text round-trip", "statement": "Parsing str(rs) yields a RangeSet equal to rs; the contiguous ranges it iterates over are disjoint, maximal, ascending and cover exactly the set.", "quantifier": "every finite set of non-negative integers", "why_tests_cant": "Codec property over all finite sets.", "anchors": ["collatex-pythonport/ClusterShell/RangeSet.py:RangeSet._parse", "collatex-pythonport/ClusterShell/RangeSet.py:RangeSet._contiguous_slices", "collatex-pythonport/ClusterShell/RangeSet.py:RangeSet.__str__"]}
{"id": "C31", "title": "RangeSet step folding is exact", "statement": "With any autostep setting, the slices a RangeSet is displayed as denote exactly its elements.", "quantifier": "every finite set and every autostep threshold", "why_tests_cant": "The folding generator has a many-branch state machine.", "anchors": ["collatex-pythonport/ClusterShell/RangeSet.py:RangeSet._folded_slices", "collatex-pythonport/ClusterShell/RangeSet.py:RangeSet.slices"]}
{"id": "C32", "title": "Edge labels name the witnesses", "statement": "Each edge of the graph is labelled with the sigla of exactly the witnesses whose path uses it, in the order they were added, separated by ', '.", "quantifier": "every collation, before and after segmentation", "why_tests_cant": "History property over all merges.", "anchors": ["collatex-pythonport/collatex/core_classes.py:VariantGraph.connect", "collatex-pythonport/collatex/core_classes.py:CollationAlgorithm.merge", "collatex-pythonport/collatex/core_classes.py:join"]}
{"id": "C33", "title": "Collating is repeatable", "statement": "Collating the same Collation object again, also after an intermediate collate call or after adding witnesses in between, gives the same result as collating a freshly built Collation with the same witnesses.", "quantifier": "every history of add_witness and collate calls", "why_tests_cant": "History property: collate writes into the token data of the caller's witnesses.", "anchors": ["collatex-pythonport/collatex/core_functions.py:collate", "collatex-pythonport/collatex/tokenindex.py:TokenIndex._prepare_token_array", "collatex-pythonport/collatex/core_classes.py:Collation"]}
{"id": "C34", "title": "Duplicate sigla are never silently merged", "statement": "If two witnesses of a collation have the same siglum, collate raises an exception instead of returning a table.", "quantifier": "every collation containing a repeated siglum", "why_tests_cant": "Universal over inputs.", "anchors": ["collatex-pythonport/collatex/tokenindex.py:TokenIndex._prepare_token_array", "collatex-pythonport/collatex/edit_graph_aligner.py:EditGraphAligner.update_token_to_vertex_array"]}
{"id": "C35", "title": "Empty witnesses", "statement": "A collation containing a witness without tokens is rejected (AssertionError) rather than producing a partial table.", "quantifier": "every collation with an empty witness", "why_tests_cant": "Universal over the other witnesses and the position.", "anchors": ["collatex-pythonport/collatex/tokenindex.py:TokenIndex._prepare_token_array", "collatex-pythonport/ClusterShell/RangeSet.py:RangeSet.add_range"]}
{"id": "C36", "title": "The A* option works", "statement": "collate(..., astar=True) returns an alignment like the default aligner.", "quantifier": "every collation", "why_tests_cant": "No input makes it work; tests of that option are disabled.", "anchors": ["collatex-pythonport/collatex/core_functions.py:collate", "collatex-pythonport/collatex/experimental_astar_aligner.py:ExperimentalAstarAligner.collate"]}
{"id": "C37", "title": "The transposition option works", "statement": "collate(..., detect_transpositions=True) returns an alignment.", "quantifier": "every collation with two or more witnesses", "why_tests_cant": "No input with two witnesses makes it work; tests of that option are disabled.", "anchors": ["collatex-pythonport/collatex/edit_graph_aligner.py:EditGraphAligner.collate", "collatex-pythonport/collatex/transposition_handling.py:TranspositionDetection.detect"]}
{"id": "C38", "title": "Substring search in the suffix array", "statement": "SuffixArray.find(sub) returns exactly the positions at which sub occurs in the text, each once.", "quantifier": "every text and every sub-sequence", "why_tests_cant": "Binary search over all texts and patterns.", "anchors": ["collatex-pythonport/collatex/linsuffarr.py:SuffixArray._findOne", "collatex-pythonport/collatex/linsuffarr.py:SuffixArray.find"]}
{"id": "C39", "title": "User token properties survive", "statement": "The JSON output contains for each token all properties the user supplied, unchanged, plus only '_sigil' and '_token_array_position'; the siglum is that of the witness and the position is unique in the collation.", "quantifier": "every pre-tokenised collation whose tokens do not themselves use those two keys", "why_tests_cant": "Universal over user data.", "anchors": ["collatex-pythonport/collatex/tokenindex.py:TokenIndex._prepare_token_array", "collatex-pythonport/collatex/core_functions.py:export_alignment_table_as_json"]}
{"id": "C40", "title": "Output dispatch", "statement": "collate returns the requested representation for each documented output name and raises an Exception for every other output name. Called with the collation only, collate returns the segmented alignment table.", "quantifier": "every output string and every collation", "why_tests_cant": "Universal over strings.", "anchors": ["collatex-pythonport/collatex/core_functions.py:collate"]}
{"id": "C41", "title": "Block occurrence ranges", "statement": "Block.get_all_occurrences_as_ranges lists one range per occurrence of the block.", "quantifier": "every block", "why_tests_cant": "Universal over blocks; no test covers it.", "anchors": ["collatex-pythonport/collatex/block.py:Block.get_all_occurrences_as_ranges"]}
{"id": "C42", "title": "Witness with an empty siglum", "statement": "A witness whose id is the empty string is treated like any other (its tokens appear in the table).", "quantifier": "every collation with an empty siglum", "why_tests_cant": "Only the falsy siglum exposes it.", "anchors": ["collatex-pythonport/collatex/core_classes.py:VariantGraphVertex.__init__"]}
{"id": "C43", "title": "A* search returns a path", "statement": "AStar.search, run on the edit graph, terminates and returns a chain of nodes from a successor of the start node to the end node, each a child of its predecessor.", "quantifier": "every pair of token sequences and every scoring outcome", "why_tests_cant": "Universal over inputs and search histories.", "anchors": ["collatex-pythonport/collatex/astar.py:AStar.search", "collatex-pythonport/collatex/experimental_astar_aligner.py:AstarEditGraphAligner.create_childnodes"]}
{"id": "C44", "title": "Result independent of the topological order", "statement": "networkx may return any topological order of the variant graph; whichever it returns at each call, collate gives the same result (graph, ranks, table, exports).", "quantifier": "every collation with distinct, non-empty sigla, every option without near matching, every two topological orders", "why_tests_cant": "Universal over inputs and over the choices of an external library; a test run sees one networkx version.", "anchors": ["collatex-pythonport/collatex/core_classes.py:VariantGraphRanking.of", "collatex-pythonport/collatex/core_functions.py:collate"]}
{"id": "C45", "title": "Near matching never fails and keeps the columns", "statement": "Wherever collate succeeds without near matching (segmentation=False), it also succeeds with near_match=True, for every similarity measure; the table has the same number of columns, every vertex keeps exactly one rank, and the vertices, tokens and edges of the graph are the same.", "quantifier": "every collation, every similarity measure, every topological order", "why_tests_cant": "Failures would need particular combinations of ranks: a move can empty a rank, or leave no candidate for a later vertex; the number of combinations is unbounded.", "anchors": ["collatex-pythonport/collatex/near_matching.py:perform_near_match", "collatex-pythonport/collatex/core_classes.py:VariantGraphRanking.of"]}
{"id": "C46", "title": "Witnesses given as data", "statement": "Collation.create_from_dict reads the first `limit` entries of the list under \"witnesses\" (all of them without a limit, all but the last k for -k), in order: the siglum is the \"id\"; a \"content\" text is tokenised; otherwise the \"tokens\" dictionaries are kept unchanged and compared by their \"n\", or else \"t\", value; otherwise the witness has no tokens. It succeeds exactly when every such entry can be read this way. The first entry that cannot be read decides the error: KeyError without an \"id\", TypeError for a content that is not a text, TokenError if one of the tokens has neither \"n\" nor \"t\", otherwise TypeError if the value compared of some token is not a text; without \"witnesses\" it is KeyError.", "quantifier": "every dictionary and limit", "why_tests_cant": "Universal over data and limits, including negative limits and mixed kinds of witnesses.", "anchors": ["collatex-pythonport/collatex/core_classes.py:Collation.create_from_dict", "collatex-pythonport/collatex/core_classes.py:Witness.__init__"]}
{"id": "C47", "title": "Near matching chooses the most similar token", "statement": "With near_match=True a token moves only if there is a free rank between it and the token that follows, and it moves to the column of the first of the tokens, among those on the ranks it can have, whose similarity to it is greatest; if only one token moves, every other one stays in its column; if none had room, nothing changes.", "quantifier": "every collation, similarity measure and topological order", "why_tests_cant": "Universal over collations and similarity measures; a wrong comparison shows only when the candidates come in a particular order.", "anchors": ["collatex-pythonport/collatex/near_matching.py:perform_near_match"]}
{"id": "C48", "title": "RangeSet operations are set operations", "statement": "Copy, intersection, difference, in-place update, intersection, difference and symmetric difference, add, remove and discard give exactly the set the operation names (remove and strict difference raise KeyError exactly when an element is missing); ==, <=, >=, <, `in` are equality, inclusion, strict inclusion and membership; indexing gives the elements in ascending order; union and symmetric_difference give the union and symmetric difference; split(n) divides the set.", "quantifier": "every pair of finite sets, every element and index", "why_tests_cant": "Universal over sets; only some operations were adapted to Python 3.", "anchors": ["collatex-pythonport/ClusterShell/RangeSet.py:RangeSet.intersection", "collatex-pythonport/ClusterShell/RangeSet.py:RangeSet.difference", "collatex-pythonport/ClusterShell/RangeSet.py:RangeSet.union", "collatex-pythonport/ClusterShell/RangeSet.py:RangeSet.split", "collatex-pythonport/ClusterShell/RangeSet.py:RangeSet.__eq__", "collatex-pythonport/ClusterShell/RangeSet.py:RangeSet.__getitem__"]}
{"id": "C49", "title": "A* search finds a cheapest path", "statement": "The path AStar.search returns on the edit graph costs no more than any other path from the start to the end node (match 0, near match 0.5, addition or omission 1, mismatch 2), and the score left in the end node is its cost.", "quantifier": "every pair of token sequences, every match function", "why_tests_cant": "Optimality compares the result with all, exponentially many, paths; the heuristic is computed from the wrong lengths, and only a proof shows that it is consistent all the same.", "anchors": ["collatex-pythonport/collatex/astar.py:AStar.search", "collatex-pythonport/collatex/suffix_based_scorer.py:Scorer.score_cell", "collatex-pythonport/collatex/suffix_based_scorer.py:Scorer.heuristic_score"]}
{"id": "C50", "title": "The alignment of the A* aligner is a matching", "statement": "The alignment read from the A* path pairs only tokens that match, in order, no token twice, and the new superbase contains every token of the old one.", "quantifier": "every pair of token sequences, every match function", "why_tests_cant": "Universal over inputs; depends on the order in which the search scores cells.", "anchors": ["collatex-pythonport/collatex/experimental_astar_aligner.py:ExperimentalAstarAligner._align_astar", "collatex-pythonport/collatex/experimental_astar_aligner.py:ExperimentalAstarAligner.newer_add_to_superbase"]}
{"id": "C51", "title": "JSON output is a JSON text that reads back", "statement": "The text collate(output='json') returns, and export_alignment_table_as_json with any indent, is a valid JSON text whatever characters the witnesses contain; a JSON reader gets from it the witnesses' sigla and, per witness, a row whose tokens are that witness's tokens in order with all of their data. Without indentation the text is a single line; with it, every line break is outside of strings and the next line is indented by as many steps as arrays and objects are open.", "quantifier": "every collation, every string content (quotes, control characters, characters beyond the basic plane, lone surrogates), every indent", "why_tests_cant": "Escaping has to be right for every code point and every nesting; the order of object members is changed by the exporter.", "anchors": ["collatex-pythonport/collatex/core_functions.py:export_alignment_table_as_json", "collatex-pythonport/collatex/core_functions.py:export_alignment_table_as_vertical_json", "collatex-pythonport/collatex/core_functions.py:collate"]}
{"id": "C52", "title": "The drawing shows the graph", "statement": "output='svg' and 'svg_simple' draw the variant graph the same call returns with output='graph': one node per vertex with its readings and the sigla beside them, one edge per edge with its sigla, one dashed edge per near match, and nodes grouped by rank exactly as the columns of the table. Every witness can be read along the edges that carry its siglum. Texts that are different look different, and everything that can be collated can be drawn.", "quantifier": "every collation, every option, every text", "why_tests_cant": "The repository has no test of the drawing's content; node names, ranks after near matching and escaping must be right for every graph and every text.", "anchors": ["collatex-pythonport/collatex/display_module.py:display_variant_graph_as_svg", "collatex-pythonport/collatex/core_functions.py:collate"]}
{"id": "C53", "title": "XML and TEI outputs read by an XML parser", "statement": "A conforming XML parser (which normalises line ends and the white space in attributes) reads from the xml output the sigla and the texts of the table, and from the TEI output the readings with the witnesses that have them.", "quantifier": "every collation, every text and every siglum, with and without indentation", "why_tests_cant": "Which characters must be written as references depends on the parser's normalisation rules; it must hold for all strings.", "anchors": ["collatex-pythonport/collatex/core_functions.py:export_alignment_table_as_xml", "collatex-pythonport/collatex/core_functions.py:export_alignment_table_as_tei"]}
{"id": "C54", "title": "The html2 output is a table of the columns with one cell per witness", "statement": "collate(..., output=\"html2\") displays an HTML table with a heading row naming the witnesses in the order in which they were added and one row per column of the alignment table; each row has one cell per witness, showing that witness' text in the column (wrapped) or a hyphen, and the cells are red exactly in the columns with variation, cyan in the others. It succeeds for every collation with texts, and different alignments look different.", "quantifier": "all collations, sigla and token texts, all orders of the vertices, all text wrappers that only add blanks and line breaks", "why_tests_cant": "The markup is assembled from unescaped user texts; a test compares one page and says nothing of other texts.", "anchors": ["collatex-pythonport/collatex/display_module.py: visualize_table_vertically_with_colors", "collatex-pythonport/collatex/HTML.py: TableCell, TableRow, Table", "collatex-pythonport/collatex/core_functions.py: collate"]}
{"id": "C55", "title": "A printed alignment table shows every witness and every cell", "statement": "str() of the alignment table that collate returns shows, in the horizontal layout, one row per witness in the order in which they were added: its siglum, then for every column its text without trailing white space, or a hyphen where it has nothing; in the vertical layout one column per witness, headed by its siglum, with the wrapped texts. Both layouts work for every collation with texts, and different alignments print differently.", "quantifier": "all collations, options and layouts, all orders of the vertices, all text wrappers", "why_tests_cant": "Printed tables are only compared for a handful of inputs; the claim covers every cell of every table.", "anchors": ["collatex-pythonport/collatex/core_classes.py: AlignmentTable.__str__, create_table_visualization, visualizeTableHorizontal, visualizeTableVertically"]}
{"id": "C56", "title": "Token dictionaries are looked at, not identified", "statement": "When witnesses are given as lists of token dictionaries, the result of collate depends only on the contents of the dictionaries: giving the same dictionary object for several tokens gives what copies of it would give. collate writes nothing into the caller's dictionaries but the entries _sigil and _token_array_position, and calling it again with the same objects gives the same answer.", "quantifier": "all inputs with token lists, all ways in which the dictionary objects may be shared, all options", "why_tests_cant": "Tests build a fresh dictionary for each token; the claim is about all sharing patterns and about the objects left behind.", "anchors": ["collatex-pythonport/collatex/core_classes.py: Token, Witness, Collation.create_from_dict", "collatex-pythonport/collatex/tokenindex.py: TokenIndex._prepare_token_array", "collatex-pythonport/collatex/edit_graph_aligner.py: update_token_position_to_vertex, update_token_to_vertex_array"]}
{"id": "C57", "title": "The alignment depends on sigla and token strings only", "statement": "Two collations with the same sigla and the same token strings (the n entries, or the t entries of tokens without n) in the same order are aligned in the same way, whatever else their token dictionaries contain: collate raises the same error for both or gives tables (and graphs) of the same shape, with the same variant flags, holding tokens of the same places, as long as a properties filter, if there is one, answers the same for both.", "quantifier": "all pairs of collations that agree on sigla and token strings, all options, all properties filters that answer alike on both", "why_tests_cant": "It relates two executions for all pairs of inputs and for arbitrary additional token data; tests compare a few fixed inputs with expected tables.", "anchors": ["collatex-pythonport/collatex/core_functions.py: collate", "collatex-pythonport/collatex/edit_graph_aligner.py: EditGraphAligner, Scorer", "collatex-pythonport/collatex/tokenindex.py: TokenIndex", "collatex-pythonport/collatex/near_matching.py: perform_near_match", "collatex-pythonport/collatex/core_classes.py: join, Column"]}
{"id": "C58", "title": "The order of dictionary entries does not matter", "statement": "Two inputs of collate that are equal as Python values, differing only in the order in which the entries of their dictionaries (the input, a witness, a token, or a value inside a token) were inserted, give the same result: the same error, the same xml, tei, csv and tsv text, JSON outputs with the same text, and tables and graphs with the same shape and the same tokens.", "quantifier": "all input dictionaries, all reorderings at every depth, all options, all properties filters that do not look at insertion order", "why_tests_cant": "It compares two runs for every input and every reordering; the code iterates over dictionaries in several places and only a proof excludes that one of them leaks into the result.", "anchors": ["collatex-pythonport/collatex/core_classes.py: Collation.create_from_dict, Witness, Token", "collatex-pythonport/collatex/core_functions.py: collate, export_alignment_table_as_json", "collatex-pythonport/collatex/tokenindex.py: TokenIndex._prepare_token_array"]}
{"id": "C59", "title": "Witnesses read from a JSON file", "statement": "Collation.create_from_json, given an open file with a JSON text, yields a collation that is collated exactly as the dictionary the text denotes, whatever the layout of the text and the order of its members; a text that is not JSON raises ValueError and one that is not an object TypeError. As the comment in the code announces, it also accepts the text itself as a string.", "quantifier": "all JSON texts (integers only), all dictionaries with the same content, all options", "why_tests_cant": "Texts and dictionaries are unbounded, and the same dictionary has unboundedly many texts.", "anchors": ["collatex-pythonport/collatex/core_classes.py: Collation.create_from_json, Collation.create_from_dict"]}
{"id": "C60", "title": "The table of two witnesses is a best one", "statement": "The alignment table of two witnesses is given by pairs of equal readings going upwards in both: each pair has a column of its own, which is not variant, and between the pairs the remaining tokens stand side by side from the left in variant columns. The number of columns on which the witnesses agree less the number of the others is the greatest that any such pairing reaches, and so does not depend on which witness is given first.", "quantifier": "all pairs of witnesses (strings or tokens), all similarity functions and topological orders; the optimality for calls without property filter where no two neighbouring tokens of the second witness are equal", "why_tests_cant": "The number of ways of pairing grows exponentially and texts are unbounded.", "anchors": ["collatex-pythonport/collatex/core_functions.py: collate", "collatex-pythonport/collatex/core_classes.py: VariantGraphRanking", "collatex-pythonport/collatex/edit_graph_aligner.py: EditGraphAligner.fill_needleman_wunsch_table, Scorer.score, ScoreIterator"]}
{"id": "C61", "title": "Omissions and additions are shown as such", "statement": "If one of two witnesses is the other with some tokens left out, the table has one column for each token of the longer one, in which the shorter one either has the same reading or an empty cell.", "quantifier": "all pairs of witnesses of which one is a subsequence of the other (where the second is the longer: no two neighbouring tokens of it are equal), all similarity functions", "why_tests_cant": "Texts and the places of the omissions are unbounded, and the aligner has many ways to be misled.", "anchors": ["collatex-pythonport/collatex/core_functions.py: collate", "collatex-pythonport/collatex/edit_graph_aligner.py: EditGraphAligner.fill_needleman_wunsch_table, Scorer.score, ScoreIterator"]}
{"id": "C62", "title": "The names of the witnesses do not matter", "statement": "Giving other sigla to the witnesses (equal ones staying equal, different ones different, empty ones empty) changes nothing in the table but the row headers, nothing in the graph but the sigla, nothing in the csv and tsv texts but the first fields of the rows, and nothing in the JSON output but the list of witnesses and the entries that collate itself writes into the token data; if collate raised an exception it raises the same one.", "quantifier": "all collations, all renamings, all options (table, graph, csv, tsv and horizontal json output), all properties filters, all topological sorts that look at nodes and edges only", "why_tests_cant": "Sigla are keys of many dictionaries and part of the token data a filter could see; names are unbounded.", "anchors": ["collatex-pythonport/collatex/core_functions.py: collate", "collatex-pythonport/collatex/tokenindex.py: TokenIndex", "collatex-pythonport/collatex/core_classes.py: VariantGraph, AlignmentTable"]}
{"id": "C63", "title": "White space between words does not matter", "statement": "The token strings of a plain text that does not begin with white space are its words and pieces of punctuation, whatever white space follows each of them; texts with the same words and punctuation, spaced differently, are therefore aligned in the same way.", "quantifier": "all plain texts that do not begin with white space, all character classifications, all options without properties filter", "why_tests_cant": "Texts and their spacings are unbounded.", "anchors": ["collatex-pythonport/collatex/core_classes.py: WordPunctuationTokenizer.tokenize, Witness.__init__, Collation.add_plain_witness", "collatex-pythonport/collatex/core_functions.py: collate"]}
{"id": "C64", "title": "Further witnesses only add to the graph", "statement": "Adding witnesses at the end of a collation keeps what was aligned: every vertex and edge of the graph of the first witnesses is in the graph of the larger collation, with the same label and the same tokens of the first witnesses, and these witnesses have no tokens on other vertices; so two of their tokens are aligned in the larger collation exactly if they were in the smaller. This holds as long as no two vertices with the same reading were at the same distance from the start; it always holds for the first two witnesses. Where such a tie exists a further witness can change the alignment of the earlier ones, and readings that only share a column, without being aligned, can be separated by a further witness.", "quantifier": "all collations, all further witnesses, all topological orders", "why_tests_cant": "A test adds one witness to one collation; the token index, the suffix array and the blocks are computed from all witnesses at once, so independence from the later ones is a fact about every text that can follow.", "anchors": ["collatex-pythonport/collatex/core_functions.py:collate", "collatex-pythonport/collatex/edit_graph_aligner.py:EditGraphAligner.collate", "collatex-pythonport/collatex/edit_graph_aligner.py:MatchCube", "collatex-pythonport/collatex/tokenindex.py:TokenIndex.split_lcp_array_into_intervals"]}
{"id": "C65", "title": "Instances and depth of blocks", "statement": "The block instances a token index lists for a witness are exactly the occurrences of its blocks that lie in that witness. The depth of a block is the number of witnesses that have an instance of the block: at least one, at most the number of witnesses and at most the frequency; among the blocks with one text there is one whose depth is the number of witnesses the text occurs in (not every block has that depth). All instances of a block have the same text; get_tokens of an instance gives it as a list with one element, the list of the tokens.", "quantifier": "all collations with distinct sigla, all blocks, instances and witnesses", "why_tests_cant": "A test counts a few blocks of one text; which instances are found depends on the suffix array of the whole text.", "anchors": ["collatex-pythonport/collatex/block.py:Block.get_depth", "collatex-pythonport/collatex/block.py:Instance", "collatex-pythonport/collatex/tokenindex.py:TokenIndex.block_instances_for_witness"]}
{"id": "C66", "title": "Segmentation keeps the alignment", "statement": "Two tokens are aligned with segmentation=True (they stand at the same place of the segments on one vertex) exactly if they are aligned (on one vertex) with segmentation=False, and the table has no more columns than without segmentation. (The columns themselves need not be unions of columns without segmentation.)", "quantifier": "all collations, all pairs of tokens, all topological orders, with or without a properties filter", "why_tests_cant": "A test compares two tables of one collation; that joining never moves a token to other tokens has to hold for every shape of the graph.", "anchors": ["collatex-pythonport/collatex/core_classes.py:join", "collatex-pythonport/collatex/core_functions.py:collate"]}
{"id": "C67", "title": "A witness that repeats or shortens an earlier one adds nothing", "statement": "If the words of a further witness can be read, in this order, on a way through the variant graph (in particular if the witness is a copy or an excerpt of an earlier witness), then adding it creates no vertex and moves no vertex to another rank: every word of it is aligned with an equal word, and without segmentation the table keeps its columns and rows and only gets one more row. (With segmentation the columns may be split.)", "quantifier": "all collations, all positions of the witness, all excerpts, all topological orders", "why_tests_cant": "It follows from the optimality of the alignment over all graphs and texts; tests only try single copies.", "anchors": ["collatex-pythonport/collatex/edit_graph_aligner.py:Scorer", "collatex-pythonport/collatex/edit_graph_aligner.py:EditGraphAligner", "collatex-pythonport/collatex/core_classes.py:merge"]}
{"id": "C68", "title": "Only the equality of the words matters, not the words", "statement": "Replace every word of the witnesses consistently by another word, so that equal words stay equal and different words stay different. Then collate (without near matching and without a properties filter, with or without segmentation) yields a table with the same rows, the same columns and the same variant flags, and every cell holds the tokens at the same places of its witness. For two witnesses this holds always; for more it holds if no intermediate variant graph has two vertices of equal rank with the same reading, and can fail otherwise because the alphabetical order of the words then decides.", "quantifier": "all collations with unique non-empty sigla, all consistent replacements of words, all options with near matching, transposition data and properties filter off", "why_tests_cant": "The suffix array sorts the words, so a renaming changes every intermediate index; that the result does not depend on it is a statement about pairs of runs on unboundedly many inputs.", "anchors": ["collatex-pythonport/collatex/edit_graph_aligner.py: EditGraphAligner.collate", "collatex-pythonport/collatex/edit_graph_aligner.py: MatchCube", "collatex-pythonport/collatex/tokenindex.py: TokenIndex.prepare", "collatex-pythonport/collatex/core_functions.py: collate"]}
{"id": "C69", "title": "Padding and autostep of a RangeSet are display settings", "statement": "The results of the set operations, copies and slices of a RangeSet have its padding and autostep; update, add and add_range give a set without padding the padding of the argument and never replace one; clear drops the padding only. autostep reads back as it was set (None when off). A RangeSet made from another one keeps its elements and padding and has the autostep that was passed. striter yields, in ascending order, for every element the text with sign, just enough zeros to reach the padding, and the digits, and int of this text is the element.", "quantifier": "all RangeSets, all paddings, all autosteps, all operations", "why_tests_cant": "All combinations of operands with and without padding, negative numbers and numbers wider than the padding are unbounded.", "anchors": ["collatex-pythonport/ClusterShell/RangeSet.py: RangeSet.copy, update, add, add_range, clear, striter, contiguous, autostep"]}
{"id": "C70", "title": "A pickled RangeSet comes back as it was", "statement": "Pickling and unpickling (and copy.deepcopy of) a RangeSet gives a RangeSet with the same elements, padding and autostep.", "quantifier": "all RangeSets", "why_tests_cant": "The state travels through the text form, whose reading has special cases for zeros, steps and padding.", "anchors": ["collatex-pythonport/ClusterShell/RangeSet.py: RangeSet.__reduce__, __setstate__, __str__, _parse"]}
{"id": "C71", "title": "Constructors and slices of a RangeSet", "statement": "fromlist and updaten give the union of all the sets and of the sets the texts stand for, with the first padding that is defined, and fail exactly if one of the texts cannot be read. fromone gives the set of one integer, or of the integers of a slice. Indexing with a slice gives the elements at the positions Python chooses in the ascending list, for all bounds, missing bounds, negative bounds and negative steps; only the step 0 raises (ValueError).", "quantifier": "all lists of sets and texts, all slices", "why_tests_cant": "Unbounded lists, texts and slice bounds.", "anchors": ["collatex-pythonport/ClusterShell/RangeSet.py: RangeSet.fromlist, fromone, updaten, __getitem__"]}
{"id": "C72", "title": "A common ending is aligned", "statement": "If every witness ends with the same words, and none of these words stands twice in a row in the second or a later witness, then collate (without near matching and without a property filter) aligns the endings: without segmentation the last columns of the table hold these words, one column for each, in every row, and none of these columns is variant; with segmentation the last column is not variant and the segment of every witness in it ends with these words.", "quantifier": "every collation, every common ending, with and without segmentation or transposition detection", "why_tests_cant": "A test fixes the texts before the ending; whether some text before it can draw the common ending to another place depends on all optimal alignments and on how ties between them are broken.", "anchors": ["collatex-pythonport/collatex/edit_graph_aligner.py: EditGraphAligner.collate, fill_needleman_wunsch_table, align_matching_tokens, Scorer", "collatex-pythonport/collatex/core_classes.py: AlignmentTable, join"]}
{"id": "C73", "title": "A common beginning of words that do not recur is aligned", "statement": "If every witness begins with the same words, and none of these words occurs again later in any witness, then collate (without near matching and without a property filter) aligns the beginnings: without segmentation the first columns hold these words, one column for each, in every row, and none of these columns is variant; with segmentation the first column is not variant and the segment of every witness in it begins with these words.", "quantifier": "every collation, every common beginning, with and without segmentation or transposition detection", "why_tests_cant": "The claim is about all texts that can follow the common beginning; it fails when a word of it recurs, because the aligner prefers the last of equally good alignments.", "anchors": ["collatex-pythonport/collatex/edit_graph_aligner.py: EditGraphAligner.collate, fill_needleman_wunsch_table, align_matching_tokens, Scorer", "collatex-pythonport/collatex/core_classes.py: AlignmentTable, join"]}
{"id": "C74", "title": "The token index says where each witness stands", "statement": "After the token index of a collation with distinct sigla is prepared, get_range_for_witness gives, for each witness, the consecutive positions at which the token array holds exactly the witness's tokens in order, beginning at start_token_position_for_witness; the entries there carry the witness's siglum; between two witnesses there is exactly one other entry, a marker numbered after the witness before it, and there is none after the last; for a siglum that is no witness's both calls raise an error.", "quantifier": "every collation with distinct sigla for which prepare succeeds, every witness, every token position, every unknown siglum", "why_tests_cant": "The offsets accumulate over all earlier witnesses and markers; a test checks particular lengths only.", "anchors": ["collatex-pythonport/collatex/tokenindex.py: TokenIndex._prepare_token_array, get_range_for_witness, start_token_position_for_witness"]}
{"id": "C75", "title": "A JSON result can be collated again", "statement": "Take the text of a JSON result of collate without near matching, read it with a JSON reader, and build a new input dictionary from it: for each witness its siglum and, as tokens, the tokens of its row in order. Collating that dictionary gives, with any options and every kind of output, the same as collating the original collation: the same table, the same texts, or the same error. In particular JSON output fed back gives the same JSON text again.", "quantifier": "every collation with distinct sigla whose tokens were given as text or as data with a t or n entry, every options and indentation of the first and every options of the second collation whose properties filter does not look at the order of entries", "why_tests_cant": "The claim ranges over all inputs and option pairs, including internal keys written into tokens on the first pass, the text encoding of every string, and the sorting of keys.", "anchors": ["collatex-pythonport/collatex/core_functions.py: collate, export_alignment_table_as_json", "collatex-pythonport/collatex/core_classes.py: Collation.create_from_dict, Witness, Token", "collatex-pythonport/collatex/tokenindex.py: TokenIndex._prepare_token_array"]}
{"id": "C76", "title": "Word suffix arrays keep the text", "statement": "SuffixArray(text, UNIT_WORD) succeeds for every text; its tokens are the newlines and the longest stretches without spaces and newlines, in order. reprString(p, k) is the text of the k tokens from p on, with one space between two words and none beside a newline, and has exactly these tokens again; a text without needless spaces is given back unchanged by reprString(0, n). With UNIT_BYTE, reprString(p, k) is text[p:p+k]. vocSize is the number of different words and nbSentences the number of newlines.", "quantifier": "every text, offset and length", "why_tests_cant": "The two replacements in reprString interact at sequences of newlines and at the ends of the text; tests cover a few words.", "anchors": ["collatex-pythonport/collatex/linsuffarr.py: SuffixArray.__init__, tokenize, reprString"]}
{"id": "C77", "title": "Features of suffix arrays", "statement": "find(text, features) returns every occurrence of the text exactly once, each with the values that the named features have for the suffix there. Looking up a feature of a text gives the value attached to one of its occurrences, and the default if it does not occur. addFeature attaches to each suffix the callback's value for the features of that suffix named by its parameters (also pos and iSA), and leaves other features unchanged. The printed table shows each suffix with its own features.", "quantifier": "every text, every history of added features, every searched text", "why_tests_cant": "The search range comes from a binary search and LCP values; errors show only at particular ranks, such as the first.", "anchors": ["collatex-pythonport/collatex/linsuffarr.py: SuffixArray.addFeatureSA, addFeature, find, __str__"]}
{"id": "C78", "title": "Suffix arrays can be saved and loaded", "statement": "An array saved with toFile under any name and loaded with fromFile answers every search, every lookup of a feature and every request for a text as the saved one did.", "quantifier": "every array with every history of added features, every file name", "why_tests_cant": "The claim compares two objects on all queries.", "anchors": ["collatex-pythonport/collatex/linsuffarr.py: _open, SuffixArray.toFile, fromFile"]}
{"id": "C79", "title": "vertexWith finds the readings", "statement": "On the graph returned by collate(..., output='graph', segmentation=False), vertexWith(s) gives, for every reading s of a witness other than 'start' and 'end', a vertex that carries tokens of the witnesses, all with that reading, and raises its exception for every s that no witness reads; of several such vertices it gives the oldest. 'start' and 'end' always give the two ends of the graph. With segmentation, a vertex that is found carries, for each of its witnesses, tokens whose readings make up s.", "quantifier": "every collation with distinct non-empty sigla, all options, every string s", "why_tests_cant": "Which vertex carries which reading depends on the whole alignment; that nothing is missed or falsely found is a statement about all graphs and all strings.", "anchors": ["collatex-pythonport/collatex/core_classes.py:VariantGraph.vertexWith", "collatex-pythonport/collatex/core_functions.py:collate"]}
{"id": "C80", "title": "edge_between shows the steps of the witnesses", "statement": "On a graph returned by collate, edge_between(u, v) is true exactly when some witness goes from u directly to v; every vertex but the start can be entered from a vertex, every vertex but the end can be left to one, nothing enters the start and nothing leaves the end.", "quantifier": "every collation with distinct non-empty sigla, all options, all pairs of vertices", "why_tests_cant": "It quantifies over all pairs of vertices of all graphs that any number of merges and joins can produce.", "anchors": ["collatex-pythonport/collatex/core_classes.py:VariantGraph.edge_between", "collatex-pythonport/collatex/core_classes.py:CollationAlgorithm.merge", "collatex-pythonport/collatex/core_classes.py:join"]}
{"id": "C81", "title": "Phrase matches are the longest runs of linked tokens", "statement": "PhraseMatchDetector.detect(linked_tokens, base, tokens) divides the linked tokens of the witness into the longest stretches of consecutive tokens whose vertices follow each other in the graph without alternative, and gives for each stretch its pairs of vertex and token.", "quantifier": "every graph, every mapping of tokens to vertices, every sequence of tokens", "why_tests_cant": "Runs can be broken at any token and at any branch of the graph; the result is made of iterators whose contents depend on everything the loop does after making them.", "anchors": ["collatex-pythonport/collatex/transposition_handling.py:PhraseMatchDetector.detect", "collatex-pythonport/collatex/transposition_handling.py:PhraseMatchDetector._add_new_phrase_match_and_clear_buffer"]}
{"id": "C82", "title": "Transpositions are detected from phrase matches", "statement": "TranspositionDetector.detect(phrasematches, base) returns the list of transposed phrase matches: none when there are no phrase matches, and in general without raising.", "quantifier": "every graph returned by collate, every list of phrase matches", "why_tests_cant": "No test of the package calls it; whether any non-empty input gets through is a statement about all inputs.", "anchors": ["collatex-pythonport/collatex/transposition_handling.py:TranspositionDetector.detect"]}
{"id": "C83", "title": "The scorer matches tokens of the same block", "statement": "Scorer.prepare_witness works for every witness of the token index; afterwards Scorer.match(a, b) is 0 exactly when the tokens a and b of prepared witnesses lie in the same block and the properties filter accepts them, and -1 otherwise; near_match gives 0 in the same cases, otherwise 1 when the similarity ratio is above 0.6, and -1 in all others.", "quantifier": "every collation, every list of non-overlapping blocks, every list of prepared witnesses, every pair of tokens, every filter", "why_tests_cant": "Universal over texts and block lists; the selection of blocks has no working tests.", "anchors": ["collatex-pythonport/collatex/suffix_based_scorer.py:Scorer.prepare_witness", "collatex-pythonport/collatex/suffix_based_scorer.py:Scorer.match", "collatex-pythonport/collatex/suffix_based_scorer.py:Scorer.near_match", "collatex-pythonport/collatex/extended_suffix_array.py:Occurrence"]}
{"id": "C84", "title": "The A* aligner puts every witness into the graph", "statement": "ExperimentalAstarAligner.collate(graph, collation) adds every witness to the graph as a path from start to end that carries all its tokens in order, without error, and leaves the graph free of cycles.", "quantifier": "every collation and every scorer", "why_tests_cant": "Universal over collations and over the outcome of the scoring of every cell.", "anchors": ["collatex-pythonport/collatex/experimental_astar_aligner.py:ExperimentalAstarAligner.collate", "collatex-pythonport/collatex/experimental_astar_aligner.py:ExperimentalAstarAligner._align_astar", "collatex-pythonport/collatex/core_classes.py:CollationAlgorithm.merge"]}
{"id": "C85", "title": "The size of the table", "statement": "Without segmentation the alignment table has at least as many columns as the longest witness has tokens; it never has more columns than all witnesses have tokens together, and it has at least one. If no token of a witness is compared equal to a token of another one, the table without segmentation has as many columns as the longest witness has tokens, every witness filling the columns from the left, and with segmentation it has one column with one cell per witness.", "quantifier": "every collation with distinct non-empty sigla, every topological order, every options without near matching", "why_tests_cant": "The number of columns is the length of the longest path in a graph that depends on all witnesses; tests look at a few tables.", "anchors": ["collatex-pythonport/collatex/core_classes.py: AlignmentTable, VariantGraphRanking, join", "collatex-pythonport/collatex/core_functions.py: collate"]}
{"id": "C86", "title": "A further witness never makes the table narrower", "statement": "Adding witnesses at the end of a collation never reduces the number of columns of the table, with or without segmentation, as long as no two vertices with the same reading were at the same distance from the start (which always holds for the first two witnesses). Where there is such a tie, a further witness can make the table narrower.", "quantifier": "every collation, every list of further witnesses, every topological order, every options without near matching, transposition detection and properties filter", "why_tests_cant": "It compares the results for two inputs, for all inputs.", "anchors": ["collatex-pythonport/collatex/core_functions.py: collate", "collatex-pythonport/collatex/core_classes.py: join, VariantGraphRanking", "collatex-pythonport/collatex/edit_graph_aligner.py: EditGraphAligner.collate"]}
{"id": "C87", "title": "The row of a copy", "statement": "A copy of an earlier witness gets the same row in the table as the witness itself, and the number of columns does not depend on the order of the witnesses.", "quantifier": "every collation, every witness of it, every options without segmentation, near matching, transposition detection and properties filter", "why_tests_cant": "It compares rows for all inputs; tests with short texts whose words do not recur always show it.", "anchors": ["collatex-pythonport/collatex/edit_graph_aligner.py: EditGraphAligner.collate, fill_needleman_wunsch_table, ScoreIterator"]}
{"id": "C88", "title": "With segmentation, neighbouring columns do not both agree", "statement": "In the table of collate(..., segmentation=True) two neighbouring columns are never both without variation; with two witnesses columns with and without variation alternate, so that their numbers differ by one at most. (With three witnesses two columns with variation may be neighbours.)", "quantifier": "for every collation with distinct non-empty sigla, every tokenization and property filter", "why_tests_cant": "the columns depend on the whole alignment and on the longest paths through the joined graph; a test sees one text", "anchors": ["collatex-pythonport/collatex/core_functions.py: collate", "collatex-pythonport/collatex/core_classes.py: join, AlignmentTable, VariantGraphRanking"]}
{"id": "C89", "title": "A small difference between two witnesses gives a small number of variant columns", "statement": "If the second of two witnesses is the first with one word replaced, the table (segmentation=False) has one column per word, no empty cell, and variation in the column of the replaced word only. If k words are replaced, left out or put in, at most 2k columns have variation. Both where no two neighbouring words of the second witness are equal; otherwise one replaced word may give two variant columns.", "quantifier": "for every pair of witnesses, every position of the change and every number of changes", "why_tests_cant": "the alignment is the result of an optimisation over all paths through a table; tests try some pairs of texts", "anchors": ["collatex-pythonport/collatex/core_functions.py: collate", "collatex-pythonport/collatex/core_classes.py: VariantGraphRanking", "collatex-pythonport/collatex/edit_graph_aligner.py: EditGraphAligner.fill_needleman_wunsch_table, Scorer.score, ScoreIterator"]}
{"id": "C90", "title": "A witness with nothing in common", "statement": "A further witness that has no word in common with the others stands beside them from the left, one word per column, and the rows of the others stay exactly as they were, but for empty cells at the end: the table gets as many columns as it had, or as the new witness has words if these are more. This holds as long as no two vertices with the same reading were at the same distance from the start (which always holds for one or two witnesses before it); where there is such a tie, even a witness with nothing in common can change the alignment of the others and the width of their table.", "quantifier": "every collation, every further witness that shares no word with it, without segmentation, near matching and properties filter", "why_tests_cant": "a test adds one unrelated witness to one collation; the claim is that no unrelated witness, whatever its words and their place in the alphabet, can disturb any collation without ties", "anchors": ["collatex-pythonport/collatex/core_functions.py: collate", "collatex-pythonport/collatex/edit_graph_aligner.py: EditGraphAligner.collate, EditGraphAligner", "collatex-pythonport/collatex/core_classes.py: AlignmentTable, VariantGraphRanking"]}
{"id": "C91", "title": "Filters that accept everything or nothing", "statement": "A properties_filter that accepts every pair of tokens gives the same result as no filter, in every output format and with every combination of the other options (except that a word which equals one of the internal separators of the token array raises KeyError with the filter only). A filter that accepts no pair keeps all witnesses apart whatever they have in common: without segmentation each fills the columns from the left, one token per column, and the table is as wide as the longest witness; with segmentation the table has one column in which each witness has one cell with all its tokens.", "quantifier": "every collation, every filter function that is constantly true or constantly false, every output and option", "why_tests_cant": "the filter is called for every pair of occurrences of every repeated stretch of text; that no such call is skipped, and that none changes the alignment beyond its answer, must hold for every text", "anchors": ["collatex-pythonport/collatex/edit_graph_aligner.py: MatchCube, filtered_token_data, EditGraphAligner", "collatex-pythonport/collatex/core_functions.py: collate"]}
{"id": "C92", "title": "HTML tables and lists say what their objects say, however often they are written", "statement": "The text of an HTML.Table whose texts and attribute values need no escaping, read as markup, is exactly the table: the table's attributes that are set and not empty, a COL for each width, the header row (with TH cells for plain strings, and not with the columns' alignment), and all rows in order with all their cells in order, each with its own attributes and otherwise those of the column at its place; an empty cell shows a no-break space. Writing the same table again gives the same text although writing changes the objects. The text of collate with output='html2' is such a table, with the sigla as header and one row of coloured cells for each column of the alignment table. HTML.list and HTML.link write one entry per line and one anchor. This does not hold for a row with two equal strings and per-column attributes: both get the attributes of the first one's column. Per-column alignments for fewer columns than a row has cells raise IndexError; a TableRow without cells raises TypeError.", "quantifier": "every table, row, cell, list and link whose texts have no &, < or > and whose attribute names and values have no quotation mark, & or >; every table whatever for writing again", "why_tests_cant": "The attributes of a cell depend on own values, on the row and on the table, and writing stores them in the objects; tests fix one table and write it once.", "anchors": ["collatex-pythonport/collatex/HTML.py: TableCell, TableRow, Table, List, link, table, list", "collatex-pythonport/collatex/display_module.py: visualize_table_vertically_with_colors"]}
{"id": "C93", "title": "Blocks and occurrences as sets of token positions", "statement": "Two blocks made of RangeSets are equal exactly if they have the same positions; equal blocks whose RangeSets have the same padding and autostep have the same hash value, and blocks with the same text are equal. The lower end of an occurrence is its least position (IndexError if it has none) and a position is in range exactly if it belongs to it. The debug lines of a block witness are, for each occurrence, the words at its positions joined by blanks, as far as the positions are consecutive. The prefixes listed for a suffix array are, line by line, the longest common beginnings of neighbouring suffixes. That equal blocks always have equal hash values does not hold: RangeSets that differ only in padding are equal, but the hash is that of their texts.", "quantifier": "all blocks, occurrences and block witnesses; for equal texts, positions up to 10^100 that span less than 10^9; all texts of other than one token for the prefixes", "why_tests_cant": "Tests compare blocks made in one way; equality and hashing must agree for every way of making the ranges.", "anchors": ["collatex-pythonport/collatex/extended_suffix_array.py: Block, Occurrence, BlockWitness, ExtendedSuffixArray, lower_end, is_in_range, list_prefixes, debug"]}
{"id": "C94", "title": "Outputs made of texts need the text of every token", "statement": "The outputs xml, tei, csv, tsv, html2, svg and the printed table show the 't' entries of the tokens. For a collation that can be aligned they succeed exactly when every token has a 't' entry that is a text (near matching apart, which can lose tokens). Otherwise the call raises KeyError only if some token has no 't' entry, and TypeError only if the 't' entry of some token is not a text; it raises nothing else. The other outputs (table, graph, json, html, svg_simple) need no 't' entries.", "quantifier": "every collation that can be aligned, every token data, every options; for xml every collation whose 't' entries are texts (the xml export applies str to them)", "why_tests_cant": "every arrangement of faulty tokens over witnesses and columns, with segmentation and near matching, decides which token is looked at first", "anchors": ["collatex-pythonport/collatex/core_functions.py: export_alignment_table_as_xml", "collatex-pythonport/collatex/core_functions.py: export_alignment_table_as_tei", "collatex-pythonport/collatex/core_classes.py: to_list_of_strings", "collatex-pythonport/collatex/display_module.py: display_variant_graph_as_svg"]}
{"id": "C95", "title": "Witnesses between two ranks", "statement": "witnesses_on_path(ranking, min_rank, max_rank) returns exactly the sigla of the witnesses that have a token on a vertex whose rank lies strictly between the two ranks; it raises KeyError exactly when one of the ranks in between does not exist, and raises nothing else. It reports only witnesses of the collation.", "quantifier": "every variant graph and ranking (in particular those of every collation, with and without segmentation or near matching), all pairs of ranks", "why_tests_cant": "the boundaries (both exclusive) and the set of witnesses depend on the graph; tests show a few graphs and ranks only", "anchors": ["collatex-pythonport/collatex/near_matching.py:witnesses_on_path", "collatex-pythonport/collatex/core_classes.py:VariantGraphRanking"]}
{"id": "C96", "title": "Elements of a RangeSet given as texts, and arguments of the wrong kind", "statement": "An element of a RangeSet can be given as an integer or as a text spelling one: add, remove, discard and the membership test do the same for everything that spells the same integer, and the padded, signed texts that striter() yields are members again, so that removing all of them empties the set. A text that is no number raises ValueError, except in discard, which passes over it; anything that is neither an integer nor a text raises TypeError, in discard too although a comment there says otherwise. The operators |, &, ^, -, their in-place forms and the comparisons raise TypeError unless the other side is a set, == answers False; with a set the comparisons are inclusion and strict inclusion, and the in-place operators change the elements accordingly and keep the padding.", "quantifier": "all RangeSets, all paddings, all arguments (integers, texts, sets, other objects), all operators and comparisons", "why_tests_cant": "Tests try a few texts; the claim is about every spelling of every integer and every set.", "anchors": ["collatex-pythonport/ClusterShell/RangeSet.py:RangeSet.add", "collatex-pythonport/ClusterShell/RangeSet.py:RangeSet.remove", "collatex-pythonport/ClusterShell/RangeSet.py:RangeSet.discard", "collatex-pythonport/ClusterShell/RangeSet.py:RangeSet.__contains__", "collatex-pythonport/ClusterShell/RangeSet.py:RangeSet._binary_sanity_check"]}
{"id": "C97", "title": "Texts in parts", "statement": "For a plain text witness: a text cut in two has exactly the tokens of its two parts, one after the other, if and only if no token goes on across the cut (a word character after a word character; white space after a word and its white space; anything but a word character after punctuation or leading white space). Text added at the end of a witness changes its last token only. Any run of consecutive tokens is what the tokenizer gives for the text of that run.", "quantifier": "all texts, all cuts, all classifications of characters in which white space is not a word character", "why_tests_cant": "all texts and all places to cut them; a greedy pattern that backtracks or looks ahead differently would show for particular neighbourhoods of characters only", "anchors": ["collatex-pythonport/collatex/core_classes.py:WordPunctuationTokenizer.tokenize", "collatex-pythonport/collatex/core_classes.py:Witness.__init__", "collatex-pythonport/collatex/core_classes.py:Collation.add_plain_witness"]}
{"id": "C98", "title": "Witness data of any JSON type", "statement": "Collation.create_from_dict and collate() accept parsed JSON in which every value may have any type, and what happens depends only on the types met in order: an entry that is not an object raises TypeError and one without id KeyError; ids of any type are accepted; content that is not a text raises TypeError; a text or an object given for a list is gone through character by character or key by key, so that only empty ones can be read; a null token is accepted and has no text and no data; a text or list in the place of a token raises TypeError if it contains n or t and TokenError otherwise; numbers and booleans raise TypeError. The first entry that cannot be read decides the error. collate() then refuses null tokens and ids that are lists or objects with TypeError, an empty witness with AssertionError and no witness with IndexError, again at the first such witness. For data of the usual types all this agrees with reading and preparing as described elsewhere.", "quantifier": "every JSON value as data, every limit, every list of witnesses", "why_tests_cant": "JSON values are unbounded and nest; which error is raised depends on the order in which the values are met", "anchors": ["collatex-pythonport/collatex/core_classes.py:Collation.create_from_dict", "collatex-pythonport/collatex/core_classes.py:Token.__init__", "collatex-pythonport/collatex/core_classes.py:Witness.__init__", "collatex-pythonport/collatex/core_functions.py:collate", "collatex-pythonport/collatex/tokenindex.py:TokenIndex._prepare_token_array"]}
{"id": "C99", "title": "The table is not wider than needed", "statement": "For any two neighbouring columns of the alignment table some witness has words in both, so that no two neighbouring columns could be put into one; this holds with and without segmentation and near matching. Without near matching every word stands as far left as possible: where a cell in a column other than the first is filled, some witness has the same words in this column and words in the column before.", "quantifier": "every collation with distinct non-empty sigla, every option, every topological order, every similarity measure", "why_tests_cant": "the number of columns follows from the longest way through the graph of all witnesses, which grows without bound", "anchors": ["collatex-pythonport/collatex/core_classes.py:VariantGraphRanking.of", "collatex-pythonport/collatex/core_classes.py:AlignmentTable", "collatex-pythonport/collatex/core_functions.py:collate"]}
{"id": "C100", "title": "The size of the variant graph", "statement": "The variant graph has at most one vertex for every word of the witnesses, besides start and end, and at most one edge for every word and one more for every witness; no vertex and no edge is listed twice. If no word of a witness occurs in another one, both numbers are reached without segmentation.", "quantifier": "every collation with distinct non-empty sigla, every option, every topological order", "why_tests_cant": "ranges over all collations; a vertex or edge too many appears only with certain overlaps of the witnesses", "anchors": ["collatex-pythonport/collatex/core_classes.py:VariantGraph", "collatex-pythonport/collatex/core_classes.py:CollationAlgorithm.merge", "collatex-pythonport/collatex/core_functions.py:collate"]}
{"id": "C101", "title": "RangeSet folding leaves nothing out", "statement": "With autostep n, three or more, whatever the set: of elements a RangeSet shows singly one after the other, fewer than n are equally spaced, so that no run which reaches the threshold is left unfolded; and for every n no slice stands right after a slice with a step that it could have continued, and no single element right before one that could have begun with it. With autostep 2 the first is not so: 1, 5 and 6-8/2 are shown for {1, 5, 6, 8}.", "quantifier": "every finite set of integers, every autostep and every place in the list of slices", "why_tests_cant": "The folding generator decides on one run with what is left of the run before it; a missed fold appears only for particular neighbours of a run.", "anchors": ["collatex-pythonport/ClusterShell/RangeSet.py:RangeSet._folded_slices", "collatex-pythonport/ClusterShell/RangeSet.py:RangeSet.slices"]}
{"id": "C102", "title": "RangeSets pickled by older versions", "statement": "Restoring a RangeSet from a pickled state of the current version replaces its attributes and nothing else. Restoring one from an older version (ranges kept as quadruples with an inclusive end, as slices, or as triples) succeeds exactly if the ranges are there, have the shape of their version, are non-empty, of positive step, of padding at least 0 and of less than 10^9 places, the cached length is there, and a padding attribute is there if some range is padded. The set then has its former elements and all the integers of the ranges, its padding is the one it had or else the first positive padding of a range, its autostep is kept and the old attributes are gone. Otherwise the exception raised is determined by the first thing that is wrong.", "quantifier": "every RangeSet object (with any attributes present or absent) and every state made of the attributes of versions 0 to 3, with any list of old ranges", "why_tests_cant": "A test restores one pickle of one version; the claim covers every list of ranges of every version, every combination of missing attributes and the exact exception of each failure.", "anchors": ["collatex-pythonport/ClusterShell/RangeSet.py:__setstate__", "collatex-pythonport/ClusterShell/RangeSet.py:add_range"]}
{"id": "C103", "title": "Long texts: depth of recursion and number of comparisons", "statement": "Building the suffix array of the token list never needs more than d+1 nested activations of the recursive construction when the text has fewer than 2+(3/2)^d tokens; so texts of up to 10^n tokens need at most 6n+1, and Python's recursion limit of 1000 is not reached by any text that fits into a memory. Searching a substring in a text of fewer than 2^k tokens looks at no more than k suffixes, whatever the array holds.", "quantifier": "every text (list of token strings), every depth, every suffix array and every searched substring", "why_tests_cant": "A test with one long text shows that this text does not reach the limit; the depth depends on how often triples of names repeat at every level of the recursion.", "anchors": ["collatex-pythonport/collatex/linsuffarr.py:_suffixArrayWithTrace", "collatex-pythonport/collatex/linsuffarr.py:SuffixArray._findOne"]}
{"id": "C104", "title": "What segmentation does to the table of two witnesses", "statement": "Collating two witnesses with segmentation (the default) gives a table determined by pairs of positions with equal readings that go upwards in both witnesses: each maximal run of pairs that follow each other directly in both texts is one column, marked as not variant, in which either cell lists exactly the tokens of that run; all that stands between two runs (or before the first, or after the last) is one variant column, in which a witness without tokens there has an empty cell. The pairs are exactly those of the table without segmentation of the same witnesses. Without a property filter, and if no two neighbouring tokens of the second witness are equal, the pairs have the best possible balance of paired against unpaired columns, and the first, second, ... tokens of the two cells of a variant column are different.", "quantifier": "every two witnesses with different non-empty sigla, every combination of properties filter and transposition detection, every topological order of the graph", "why_tests_cant": "The runs depend on how the pairs of the alignment happen to follow each other, and on the order in which vertices are merged; tests look at a handful of sentences, while the claim is that no token is lost, moved to another column or merged with a wrong neighbour for any two texts.", "anchors": ["collatex-pythonport/collatex/core_functions.py: collate", "collatex-pythonport/collatex/core_classes.py: join", "collatex-pythonport/collatex/core_classes.py: VariantGraphRanking", "collatex-pythonport/collatex/edit_graph_aligner.py: EditGraphAligner"]}
{"id": "C105", "title": "Near matching places the tokens of two witnesses beside what they are most like", "statement": "collate of two witnesses with near_match=True and output table: there are pairs of positions with equal readings, going upwards in both witnesses, each with a column of its own that is not variant; every other column is variant. Between two pairs the longer of the two unpaired stretches fills the columns, one token each; the tokens of the shorter one are placed from the last to the first, each in the first of the columns where Levenshtein.ratio with the token of the longer stretch is greatest, among the columns that leave room for the tokens before it and are left of the token after it. collate without near_match gives a table with the same pairs and as many columns, in which the tokens of the shorter stretch stand at the left of the gap. Without a property filter and without doubled neighbouring readings in the second witness, no other way of pairing has a better balance.", "quantifier": "every pair of witnesses with distinct non-empty sigla and any tokens, every property filter, every similarity function in place of Levenshtein.ratio, every topological order networkx may return", "why_tests_cant": "the place of a token depends on the similarity of all tokens it could stand beside and on the places of all tokens after it; examples cover only a few texts and one similarity function", "anchors": ["collatex-pythonport/collatex/near_matching.py: perform_near_match", "collatex-pythonport/collatex/core_classes.py: VariantGraphRanking", "collatex-pythonport/collatex/core_classes.py: AlignmentTable", "collatex-pythonport/collatex/core_functions.py: collate"]}
{"id": "C106", "title": "Which of the possible alignments is chosen", "statement": "Which alignment is chosen is fixed by a textbook recursion: among all ways of going through the ranks of the graph and the tokens of the witness (a pair, an omission or an addition at each step) the one with most points is taken, and where two ways to the same place are equally good, a pair comes before an omission and an omission before an addition. There is only one such way. So without a filter every further witness is aligned along exactly the way the recursion gives, and the table of two witnesses, without segmentation, with segmentation and with near matching, is a known function of their readings, whatever they are (recurring and doubled words included).", "quantifier": "every graph and witness; every pair of witnesses, every topological order and similarity function", "why_tests_cant": "Ties between alignments occur in unboundedly many constellations of recurring words, and a changed order of preference alters few of them.", "anchors": ["collatex-pythonport/collatex/edit_graph_aligner.py: EditGraphAligner.fill_needleman_wunsch_table", "collatex-pythonport/collatex/edit_graph_aligner.py: EditGraphAligner.calculate_from_upper", "collatex-pythonport/collatex/edit_graph_aligner.py: EditGraphAligner.align_matching_tokens", "collatex-pythonport/collatex/edit_graph_aligner.py: Scorer", "collatex-pythonport/collatex/core_functions.py: collate"]}
{"id": "C107", "title": "The collation of any number of texts is the progressive alignment", "statement": "Without a token filter, the table (without near matching) and the graph (with or without near matching) of collate() without segmentation are those of aligning the texts one after the other in the order of the witnesses: the nodes of the alignment so far stand at places (one more than the greatest place of the nodes before them); each further text is laid along the places on the way with the most matches minus other moves, ties being decided for a pair, then an omission, then an addition; a word that meets a place joins a node with this word at this place, unless a word further on that also meets the place joins the same node, and all other words get new nodes. Column x of the table has the words at place x. Only the choice between several nodes with the same word at the same place is left open (the texts added so far do not determine it: witnesses added later can change it, C64); if at no stage there are two such nodes, the alignment is determined by the texts alone. With segmentation the columns and vertices are those of the segments of this alignment: the longest stretches of nodes that always occur directly after each other.", "quantifier": "every collation of any number of witnesses of any length with good sigla, every topological order, every options without a filter (tables: without near matching), with and without segmentation", "why_tests_cant": "A test fixes a handful of witnesses; the claim gives the whole table and the whole graph of every collation as a function of the readings alone.", "anchors": ["collatex-pythonport/collatex/edit_graph_aligner.py: EditGraphAligner.collate", "collatex-pythonport/collatex/edit_graph_aligner.py: EditGraphAligner.align_matching_tokens", "collatex-pythonport/collatex/edit_graph_aligner.py: MatchCube", "collatex-pythonport/collatex/core_classes.py: VariantGraphRanking", "collatex-pythonport/collatex/core_functions.py: collate", "collatex-pythonport/collatex/core_classes.py: join"]}
{"id": "C108", "title": "Collations with a filter that looks at the token to be aligned", "statement": "If the properties filter given to collate() decides by the token to be aligned alone (its first argument; for example: do not align common words), the table (without near matching) and the graph, with and without segmentation, are those of adding the texts one after the other as in C107, except that the words the filter refuses meet no place. So the result is determined by the readings and by what the filter says of each token, up to the choice between several nodes with the same word at the same place; a refused word never shares a node with a text before; and a filter that refuses nothing gives the alignments of C107.", "quantifier": "every collation of any number of witnesses of any length with good sigla whose tokens do not use the two internal keys, every filter whose answer does not depend on its second argument, every topological order and the other options (tables: without near matching)", "why_tests_cant": "The filter is an arbitrary function of the user, and refusing a match changes which way is best for the whole rest of the text and for all later witnesses.", "anchors": ["collatex-pythonport/collatex/edit_graph_aligner.py: MatchCube", "collatex-pythonport/collatex/edit_graph_aligner.py: MatchCube.filtered_token_data", "collatex-pythonport/collatex/edit_graph_aligner.py: EditGraphAligner.collate", "collatex-pythonport/collatex/core_functions.py: collate"]}
{"id": "C109", "title": "Near matching moves nothing past a word that all witnesses share", "statement": "Take the table collate() returns without near matching and the one it returns with near matching, for the same witnesses and other options. A column in which all witnesses have the same reading is the same column at the same place in both. Whatever the table with near matching shows in a row, the table without it shows in the same row, on the same side of each of these shared columns; and wherever the table without near matching shows something between two shared columns, the other one shows something in that row between them too. So a column between two shared columns (or between one and the edge of the table) shows the same in every row of both tables. And a witness that has, in the table without near matching, at most one word between any two neighbouring shared columns keeps its whole text in its row, in order: near matching can lose or exchange (C21) only words of a witness that follow one another without a shared word between them.", "quantifier": "every collation of any number of witnesses of any length with good sigla, every similarity function, every property filter and the other options without segmentation, every topological order", "why_tests_cant": "Near matching runs over all edges of the graph and recomputes the ranks after each new near edge, so each move can depend on all the moves before; that none of them ever crosses a shared word is a statement about all runs and all similarity functions.", "anchors": ["collatex-pythonport/collatex/near_matching.py: perform_near_match", "collatex-pythonport/collatex/core_classes.py: VariantGraphRanking.of", "collatex-pythonport/collatex/core_functions.py: collate"]}
{"id": "C110", "title": "Long passages that two witnesses share are aligned", "statement": "If two witnesses have a passage in common whose words stand nowhere else in them, the second has no doubled words, and the passage is long enough (twice its length exceeds the longer of the texts before it, the longer of the texts after it and the shorter of the two rests together), then collate puts the words of the passage into neighbouring columns on which both witnesses agree, with and without near matching; with segmentation the whole passage stands in one such column.", "quantifier": "all pairs of witnesses, all common passages of any length, all positions of the passage in the two texts, all similarity measures and topological sorts", "why_tests_cant": "Which alignment is found depends on everything before and after the passage; a test fixes one such text. Short passages are indeed missed.", "anchors": ["collatex-pythonport/collatex/core_functions.py: collate", "collatex-pythonport/collatex/edit_graph_aligner.py: EditGraphAligner, Scorer"]}
{"id": "C111", "title": "A common passage cuts the collation in two", "statement": "If two witnesses have a passage in common as in C110, or a common beginning or a common ending of any length, and the words of the passage stand nowhere else in them and the second has no doubled words, then without segmentation and filter, with and without near matching, the table that collate returns is the table of the texts before the passage, followed by one invariant column for each word of the passage, followed by the table of the texts after the passage: what stands on one side has no influence on the alignment of the other side.", "quantifier": "all pairs of witnesses, all common passages, beginnings and endings of any length, all texts around them, all similarity measures and topological sorts", "why_tests_cant": "It relates the results of three collations of texts of any length; a test can compare only a few of them.", "anchors": ["collatex-pythonport/collatex/core_functions.py: collate", "collatex-pythonport/collatex/edit_graph_aligner.py: EditGraphAligner, Scorer"]}
{"id": "C112", "title": "The table of heuristic values", "statement": "The table of heuristic values of the A* aligner has an entry for every node of the edit graph (a number of tokens of the witness and of the superbase) and for nothing else: the number of gaps that the difference of the two numbers makes. From a node to its child the entry falls by no more than the step costs. For texts of the same length an entry is never more than the cost of any way from the node to the end; in general it can be more, by at most the difference of the two lengths, and at the end node of texts of different lengths it is more.", "quantifier": "every pair of token sequences, every match function, every node and every way to the end", "why_tests_cant": "The lower bound compares an entry with all, exponentially many, ways from the node to the end, for all sequences.", "anchors": ["collatex-pythonport/collatex/experimental_astar_aligner.py:ExperimentalAstarAligner._create_heuristic_table", "collatex-pythonport/collatex/experimental_astar_aligner.py:AstarEditGraphAligner.heuristic", "collatex-pythonport/collatex/suffix_based_scorer.py:Scorer.heuristic_score"]}
{"id": "C113", "title": "Progress reports of the suffix array", "statement": "With tracing on, and where the report can be printed, the suffix array is the same as without. For two tokens or more all reports give the same total number of operations, the numbers reported never go down and never exceed the total, and the last report is exactly the total (100%); the total is at most eight times the number of tokens. The computation of the longest common prefixes reports at most 200 times however long the text, with numbers that never go down and end with the length of the text. For a single token the last report is 4 of 0. Where printing a report raises an exception (as the print statement does under Python 3), every construction with tracing raises it.", "quantifier": "every list of tokens, every depth of recursion, every behaviour of printing", "why_tests_cant": "The operations counted depend on how deep the construction recurses, which depends on the repetitions in the text; the total is computed beforehand from the length only. That both agree, and that both are linear, is a claim about all texts.", "anchors": ["collatex-pythonport/collatex/linsuffarr.py:_nbOperations", "collatex-pythonport/collatex/linsuffarr.py:_traceSuffixArray", "collatex-pythonport/collatex/linsuffarr.py:_suffixArrayWithTrace", "collatex-pythonport/collatex/linsuffarr.py:LCP"]}
