# Formal model of CollateX (Python port) in Coq 8.16.1

## Shape of the development

* `rocq/theories/*Model*.v` files: executable Gallina functions mirroring the Python code
  function by function. Exceptions are values (`res A := Ok a | Raise e`). Each definition cites
  file and lines of `/repo/collatex-pythonport` that it models, with simplifications.
* `*Spec.v`: small, independent vocabulary used to state the properties.
* `*Proof.v`: proofs.
* `Props_*.v`: only property theorems, `exact lemma`, `Print Assumptions`, and a concrete example
  meeting the hypotheses.
* `Tests.v`: replay of the repository's own unit tests on the model by `vm_compute` (tests of the
  model's faithfulness, not proofs).

## Modelling decisions

* Characters are code points (`N`), strings are lists of code points. Python's Unicode tables
  (`\w`, `\s`) are a parameter: theorems hold for every classification (where needed: white space is
  not a word character).
* A `Token` object's identity is its position in the token array (each `Token` is created by
  `Witness.__init__` and occurs once). Dictionaries as objects, and one object
  given for several tokens, are the subject of C56 (AliasModel.v).
* `networkx.DiGraph` is a node list and an edge list in insertion order (this gives exactly the
  per-node order of `in_edges`/`out_edges`). `topological_sort` is an external call: theorems
  quantify over every function that returns a topological order of an acyclic graph; Kahn's
  algorithm as in networkx 2.x is given as one proven instance.
* Python dicts are insertion-ordered association lists (Python >= 3.7).
* Python ints are unbounded; `array('i')` 32-bit limits are not modelled (texts < 2^31 tokens).
* `Levenshtein.ratio` is an external call: a parameter for theorems, the exact rational indel ratio
  for witnesses of refutations.

## Per-property plan

See `MANIFEST.json` for the status; plan per property id:

* C01 C02 tokenizer: fuelled regex scanner for `\w+\s*|\W+`; proved by induction on the text.
* C03 C04 C05 C07 C32 graph invariant "every witness is a path" preserved by merge and join; table
  theorem from the invariant.
* C06 acyclicity: explicit potential function for the merged graph from the rank monotonicity of the
  traceback.
* C08 C14 blocks sound: stack invariant of the interval scan + LCP correctness.
* C09 from the invariant; C10 expected to be refuted by a witness found with the executable model.
* C11 from C15/C17 (completeness + uniqueness of the optimum), induction on the number of witnesses.
* C12 skew algorithm (DC3) modelled with arrays as lists and bounds-checked reads; proved to return
  the sorted permutation for n >= 2 (n = 1 is expected to be refuted: the code documents n >= 2 but
  does not guard). C13 direct. C38 binary search.
* C15 stack invariant for coverage + sortedness. C16 expected to be refuted (redundant interval). `C16_nested`, `C16_order` (Block.__lt__): invariant of the stack of open intervals in NestedProof.
* C17 dynamic programming optimality over an inductive definition of alignment paths; of equally good ways to a point a pair is preferred to an omission and an omission to an addition (WalkSpec, `preferred`).
* C18 totality: all lookups succeed under the invariant. C19, C20, C29, C36, C37, C41, C42 expected
  to be refuted by concrete witnesses, with the true part proved as `_partial`.
* C21 refuted (token loss, exchanged tokens); proved part: with at most two witnesses rows are
  complete and in order. C22 direct. C45: vertices on a longest path never move, so every rank stays
  inhabited and a candidate always exists; the ranking stays a partition. C21 with any number of witnesses (NearRowSpec, NearRowProof, Props_nearrows): every token has a column, a cell shows exactly one of the tokens that have its column, nothing is shown twice, and tokens are lost exactly if two of a witness have the same column.
* C23 join: termination measure, degree preservation, maximality.
* C24 ranking: characterised as longest path by induction over the topological order.
* C25 C26 C27 C28 exports as string/tree functions with a reader as specification.
* C30 C31 C48 RangeSet (RangeSetModel.v) as an ascending list of integers with padding and
  autostep. The folding generator is a state machine whose invariant says that the slices
  yielded so far, followed by the pending integers, are the integers read so far. The text
  form is written and parsed character by character. Refuted: the empty set and displayed
  ranges of 10^9 integers do not survive the round trip; union, symmetric_difference and split
  fail in Python 3.
* C33 collate as a state transformer on the Collation object.
* C34 C35 error branches. C39 token data dictionaries. C40 dispatch.
* C44 the ranks are unique, so every topological order gives the same tables.
* C46 `create_from_dict`: fold over the entries, each read as the specification's relation says. The errors: DictErrSpec.v, by cases.
* C47 near matching as a relation between states (`near_run`): candidates, first maximum of the
  similarity, re-ranking; ranks after a single move from the uniqueness of the base ranking.
* C43 C49 C50 A* search on the edit graph (AStarModel.v): a store of nodes, a heap sorted by a
  stable sort, visited nodes. Termination by counting visited nodes; optimality by the usual
  invariants (a visited node has its final cost, the heuristic is consistent). The match
  function is quantified over. Refuted: IndexError when one sequence is empty; the match mark
  of a node can survive although the path enters it by a gap.

* C51 the JSON text: json.dumps with sort_keys as a function to text (JsonModel.v), a reader that
  follows RFC 8259 as the specification (JsonSpec.v), round trip by induction on the value.
* C52 the drawing (DrawModel.v): nodes, edges and groups as data, before graphviz lays them out.
  Compared with the graph and with the table of the same call. Refuted: `&` is not escaped, so
  two texts can give one drawing; tokens without 't' raise KeyError for "svg".
* C53 XML line ends: `xml_parse` normalises before reading, as XML 1.0 asks. The relation `R` between
  the rest of the text and the rest of the events is kept by every piece written. Refuted: CR in a
  text is lost; a siglum with a blank looks like two witnesses in the TEI attribute.
* C54 html2 (HtmlModel.v): the text of the page, read back by the reader of ExportSpec. textwrap.fill is
  a parameter that may only add blanks and line feeds. Refuted: texts are not escaped, and a hyphen
  token looks like an absent word.
* C56 dictionaries as objects (AliasModel.v): a heap of dictionaries, tokens hold references. Without sharing
  the model with values is recovered by rewriting; with sharing the aligner looks up a position that only
  an overwritten entry named, shown by an invariant on the keys of the position table.
* C57 what the alignment depends on: every function of the pipeline commutes with a change of token data that
  keeps position and string (naturality lemmas of ParamProof.v, one per function); the properties filter is
  the only place where data are looked at, hence the condition on its answers.
* C58 order of entries: tokens are mapped to a normal form with sorted dictionaries; by C57's naturality the
  pipeline commutes with that map, and inputs that are equal values have equal normal forms. Every output
  is then shown to factor through the normal form.
* C59 create_from_json (JsonInModel.v): json.load is the reader of JsonSpec followed by the making of dicts;
  C58 does the rest. Refuted: strings are not accepted.
* C60 two witnesses (PairSpec.v): the walk through the edit graph of the first witness is turned into a pairing,
  the table is computed from the ranking; optimality from the optimality of the walk (C11), since the bonus for
  a repeated token never arises without doublets.  Refuted with doublets (concrete texts).
* C61 omissions and additions: from C60, with a bound on the walk for omissions that needs no condition; refuted for
  additions with doublets.
* C62 renaming: the pipeline is run on both collations in step (relational lemmas of RenameProof.v, one per function);
  a renaming of finitely many names is extended to an injection of all names.  The empty name is special (C42).
  The csv, tsv and json outputs are functions of the table (Props_renamecsv.v).
* C63 white space (SpaceSpec.v): induction over the text as a list of words and punctuation, then C57.  Refuted for
  white space at the beginning of a text, which becomes a token.
* C64 further witnesses: GrowSpec (`grown`, `unambiguous`), GrowProof: the cube of a witness has the same entries in two collations with a common beginning (soundness and completeness of the cube plus uniqueness of the vertex at a rank with a reading), hence the same table of scores, walk and merge (`stages_same`); merging only adds (`stages_grown`). `C64_ambiguous_refuted`: a fifth witness moves a token of the fourth from a vertex of A to one of B, since the order in which blocks are closed depends on whether a larger word exists.
* C65 block instances and depth: BlockSpec (`begins`, `belongs`: where the witnesses stand in the token array), BlockModel (`Instance.get_tokens`); from the soundness of the instance map (InstProof) and the owners of array positions (CubeProof). `C65_depth_refuted`: a block that misses the occurrences in another witness (the LCP pattern 1, 2, 1 of C16).
* C66 segmentation and alignment: SegSpec (`aligned_at`), SegProof: the parts of the joined graph are disjoint (induction on the rank: a vertex that is left cannot stand inside another part), so the unfolded paths meet exactly where the joined ones do; paths of the joined graph unfold to paths that are not shorter. `C66_columns_refuted` shows the boundary.
* C67 copies and excerpts: ReadSpec (`reads_along`, `excerpt`), ReadProof: a walk has at most 2*tokens - ranks points, and one with that many matches every token at ascending ranks; such a walk exists if the words can be read along the graph, so by C17 the chosen alignment is one; new edges then ascend and the longest paths stay. `C67_table` transfers this to the result of collate (with the condition of C64 that earlier stages are unambiguous).
* C68 (WordSpec, WordProof, Props_word): two runs of the aligner on collations with the same pattern of equal words are related step by step: same vertices, edges and positions of tokens, other strings. The match cubes of both runs have the same entries when no two vertices of equal rank have the same reading, although blocks and suffix arrays differ; scoring, traceback, merging, joining and the table then agree. `C68_words`, `C68_two_witnesses` (no assumption on the graphs), `C68_ambiguous_refuted` (four witnesses, one word renamed, another alignment), `C68_example`.
* C69 C70 C71 (RangeMoreModel, RangeMoreSpec, RangeMoreProof, Props_rangemore): the rest of RangeSet: constructors, slices (PySlice_AdjustIndices), pickling, padding and autostep. Pickling goes through the text and therefore fails for the empty set, negative numbers and huge ranges (`C70_pickle_refuted`); otherwise it is proved from the round trip of C30. `C30_underscores` adds the underscores that Python allows in integers. RangeTextProof and Props_rangetext say exactly which sets come back from their text and from a pickle (`can_be_read`), and what is raised for every other set.
* C72, C73 (`Props_common.v`): common endings and beginnings. The walk of every step (C17) ends with pairs because of the tie rule (`last_pairs`) or begins with pairs because it is optimal (`first_pairs`); so all paths share the last (first) vertices, whose ranks are then fixed, and segmentation joins them into one vertex. Refuted without the conditions on the words (doubled word at the end, recurring word at the beginning).
* C74 (token index): `IndexModel.prepare`, `get_range_for_witness`, `start_token_position`; theorems in `Props_index.v` from the layout of the token array (`IndexProof.layout`), stated with the offsets of `BlockSpec.begins`.
* C75 (collating a JSON result again): `AgainSpec.fed_back` says which dictionary is built from a JSON value; theorems in `Props_again.v` combine the rows of the table (`PlainProof.rows_stamped`), the reader of JSON text (`JsonProof.json_read_dumps`), independence of key order (C58) and of the data written by an earlier run (`HistoryProof.agree_collate`).
* C76, C77, C78 (suffix arrays as a library): `SuffixTextModel` models tokenisation by unit, `reprString`, features, `find` with features, the rows of `__str__`, `toFile`/`fromFile` (pickle and gzip as identity); `SuffixTextSpec` says what words, neat texts and attached values are; theorems in `Props_suffixtext.v`. Three claims fail in the code: the lookup of a feature made by `addFeature` gives the default for the first suffix, the table printed from a later row shows features of other suffixes, saving under a name without .gz raises TypeError.
* C79 vertexWith: the first of the vertices in insertion order with the label. Proved from the witness paths of the graph (C07), the labels (C08) and the order of the vertices (start and end stay first through merging and joining). Boundaries refuted by example: a token 'start' is hidden by the start vertex; with segmentation single readings are not found.
* C80 edge_between: has_edge; from the witness paths, with no dead ends.
* C81 phrase matches: the two buffers are list objects shared by all zip iterators, so a match is read from their final contents. The division into phrases is specified relationally and shown to exist uniquely; the number of matches is right; their contents are not (refuted) except for one phrase up to the end of the witness.
* C82 transpositions: `sorted(..., cmp=...)` is a TypeError in Python 3; [] for no phrase matches, otherwise an exception.
* C83 Scorer: model of prepare_witness, match and near_match over the token index; with given blocks the dictionary of occurrences is shown to know exactly the tokens inside blocks; the scorer's own selection of blocks raises as soon as there is a block (C14, C15).
* C84 A* collate: model of the loop over the witnesses for any scorer; invariant: every witness merged so far is threaded through the graph and every token of the superbase has a vertex. Errors, cycles and the aligner as constructed: refutations.
* C85 size: rows and shape theorems (C03, C05) give both bounds by counting; for disjoint vocabularies every inner vertex lies on one path only, so its rank is its place on the path (SizeProof.v), and two vertices in a row could be joined.
* C86 width: C64 gives the edges of the smaller graph in the larger one; a longest path stays a path. With segmentation: edges that are not joined in the coarser graph are not joined in the finer one (Section Refine of SizeProof.v). With ties the claim fails: `C86_ambiguous_refuted` (Props_stranger.v).
* C87 copies: refuted by small examples (also for a copy that follows its original, and for the order of two witnesses); proved if the words of the original stand in no other column, from C67.
* C88 neighbouring columns of a segmented table: ShapeProof.v shows that a column is without variation iff a vertex of its rank is on all paths; two such vertices on neighbouring ranks would be joinable, and so would (for two witnesses) two vertices on one path each. Theorems in Props_shape.v.
* C89 small differences: ChangeSpec.v defines edits; ChangeProof.v turns them into a pairing and compares it with the optimal one of C60. Theorems in Props_shape.v.
* C90 (StrangerProof, Props_stranger): the graph of the larger collation contains that of the smaller one (C64), so every old path reappears; the path of the stranger shares no vertex with them, hence ranks of the old vertices are unchanged, the stranger's are 1, 2, ..., and the rank of the end is the maximum of both. `C90_ambiguous_refuted`: with a tie among the vertices a stranger changes the width of the table of the others.
* C91 (ExtremesProof, Props_extremes): with a constantly true filter every step of the match cube that succeeds gives the cube of the run without filter, and the run succeeds if no word equals a marker; with a constantly false one no entry ever enters the cube (al_matched), so the paths share no vertex and the lemmas of C85 apply.
* C92: HtmlLibModel.v models the classes TableCell, TableRow, Table, List and link of HTML.py; writing gives the text and the changed objects. HtmlLibSpec.v states the events of a table with the reader of ExportSpec. C92_document by reading the text piece by piece, C92_again by showing that stored attributes are found again, C92_html2 ties the model of html2 to the library. C92_same_text_refuted: the column of a cell is looked up with list.index.
* C93: ExtBlockModel.v models extended_suffix_array.py on top of RangeSetModel; equality and text from the theorems of C30 and C48, debug from the contiguous slices, list_prefixes from C13. C93_hash_refuted: 1-3 and 01-03.
* C94 (outputs of texts need texts): every error of the exports is traced to the 't' entry of a token of the table, and every token of the table to a token of a witness (C03, C04 for the converse). TextErrSpec/TextErrProof, Props_texterr: C94_texts, C94_exactly, C94_html2, C94_printed, C94_svg.
* C42 unnamed witnesses: the collation with an empty name and the one with an unused name are run side by side (simulation over merge, near matching, join, ranking and table; UnnamedSpec, UnnamedProof, UnnamedJoin, UnnamedTable): the same errors, vertices, edges and other witnesses; the tokens of the unnamed witness stay exactly on vertices that an earlier witness shares.
* C95 witnesses_on_path: fold over the ranks in between, by induction on the ranks and on the vertices of a rank; ranks of collate's results hold vertices of the graph only (ranks_in).
* C96: RangeArgModel.v gives add, remove, discard, `in`, the operators and the comparisons of RangeSet an argument of any kind (integer, text, set, other); RangeArgSpec.v says what an argument stands for. `striter` from the reading of padded numbers of C69, the rest from C48. `C96_discard_refuted`: the comment in discard. Floats are not modelled.
* C97 (CutSpec, CutProof, Props_cut): legal tokens (the vocabulary of C02) determine the division of a text (`C02_only_division`); the tokens of parts follow from that.
* C98 data of any JSON type: AnyDataModel.v is a second model of Token, Witness, create_from_dict and of the beginning of collate in which ids, tokens and lists may have any JSON type; AnyDataSpec.v says by relations what is read and what is refused; by cases on the types, and by induction on the lists. `C98_usual` and `C98_usual_start` show that on the usual types it is the model of TokenModel.v and IndexModel.v.
* C99 width of the table: every rank above 0 is reached over an edge from the rank before (rank = longest distance), and an edge lies on the path of a witness; with near matching, the vertices on a longest path keep their ranks (`pinned`).
* C100 size of the graph: vertices and edges are those of the witness paths; NoDup and inclusion give the bounds, and disjoint paths the equality.
* C101 folding is complete: RangeFoldSpec.v (equally spaced, shown singly), RangeFoldProof.v (the invariant of the generator: what was shown last and what may not follow it), Props_fold.v.
* C10 for two witnesses (Props_exact.v): exact where the second witness has no doublets, from the optimality of C60 (a pair more would make a better table); the condition is shown to be needed.
* C102 RangeOldModel.v: `__setstate__` on objects whose attributes may be missing, with the three shapes of old ranges; vocabulary in RangeOldSpec.v (`stands_for`, `sound_range`, `of_version`, `first_padding`); Props_oldrange.v: C102_current, C102_old (exactly when, and what), C102_no_ranges, C102_errors, C102_shapes (which exception), by induction on the list of ranges. Simplified: the entries of old states are tuples of integers of one of the three shapes.
* C103 SuffixDepthModel.v: the construction and the search with a limit on the depth of the recursion and on the steps of the loop; Props_longtext.v: C103_depth, C103_size, C103_search. DC3Proof.v proves the construction with the logarithmic bound (`dc3_deep`: 3 (n02 - 2) <= 2 (n - 2)); the search by halving.
* C104: SegTableSpec.v defines the columns from the pairs (runs of pairs and what is between them) and what it means for a cell to show positions of a witness; SegTableProof.v takes the path of either witness through the joined graph (JoinProof), the layout of the two paths over the segments (PairProof.two_table) and the alternation of the columns (ShapeProof), and shows by induction on the pairs of segments that expanding the segments to positions gives the columns of the specification; the pairs of positions are those of the graph before joining because parts of different segments are disjoint (SegProof). Props_segtable.v states C104_segmented, C104_side_by_side and the consequence C10_two_segmented_partial.
* C105 (near matching of two witnesses): NearTableSpec (best, standing, near_gap, near_layout), NearTableProof, NearLayoutProof, Props_neartable. A vertex off the longest paths has one outgoing edge, which is visited once, after its target has its final place; so its final rank is that of the first most similar vertex of a longest path between its own rank and the target's (near_settled). In a gap of two witnesses the longer stretch is on a longest path, which gives the placement from right to left.
* C106 (the chosen alignment): ChosenSpec (best_way, chosen_pairs: the recursion over prefixes, with `max` preferring pair, omission, addition), ChosenProof (best_way is best and preferred; one_way: a best preferred walk is unique, by comparing the last moves), Props_chosen. C17 gives that the table's walk is best and preferred, so it is the walk of the recursion; C60, C104 and C105 then give the table.
* C107: ProgSpec defines the reference alignment of a list of texts on lists of words only (nodes, threads, places, best way).
  ProgProof shows by induction over the witnesses that the variant graph of each stage is that of the reference: vertex n + 2 is node n,
  the rank of a vertex is the place of its node, and the dictionary of aligned tokens is the choice of old nodes. Proved for the
  table and the graph under the condition that the stages are unambiguous (clear); C107_ambiguous_refuted shows a collation
  without it in which the program takes another node.
  ProgTwo/Props_three: the first stage is always unambiguous, the second if the second text has no word twice in a row
  (C107_two, C107_three, C107_later_stages).
  SegProgSpec/SegProgProof/Props_segprog: with segmentation the table and graph are those of the segments of the reference
  alignment. `together` is the joinability of the graph (C23), and a cutting of a thread whose pieces hold together and whose
  neighbours do not is the only one (segments_unique); the ranks of the joined graph are the places of the segments.
  AnyProgSpec/AnyProgProof/Props_anyprog: without the condition. `one_by_one` is the relation "the texts were added one after
  the other, with some choice of node for each word that meets a place"; the choice of the program is the token its match
  table holds for the cell. C107_any_clear: where the stages are unambiguous there is exactly one such alignment, the
  reference one, so the condition only removes a choice between nodes with the same word at the same place.
* C108 filters that look at the token to be aligned: FiltProgSpec marks each word with what the filter says of it; the matches with the filter are those without it less the refused tokens (FiltProgProof.cube_cut), so the stage lemmas of C107 apply to the smaller set of matches.  A filter that also looks at its second argument is given the first token of the repeated block (C20), so this description does not apply to it.
* C109 near matching and shared words: a rank with one vertex that no edge jumps over (NearSideProof.sole) is a fence.  Invariant over the run: every vertex has a rank on the same side of each fence as before near matching, and every near edge joins two vertices on the same sides.  A new near edge starts at a vertex off the longest paths, so not on a fence, and its candidates lie between the ranks of the two ends of an edge, which is on one side of each fence.  A column that is not variant is such a rank.  For a row with at most one filled cell between fences the filled cells before and after answer each other in order (NearKeepProof.rows_kept).
* C110 long common passages (PassageProof.v): the match table of the two texts has the passage as a diagonal that is alone in its rows and columns.
  A way that misses the diagonal loses a point for each word of the passage, so that the way through it has more points;
  a best way that touches the diagonal contains all of it (CommonProof.v for both ends).  Columns by C60, C104 and C105.
  Refuted for short passages.
* C111 (`Props_split.v`, `SplitProof.v`, vocabulary in `SplitSpec.v`): the best way through the edit graph of two witnesses passes through the diagonal of a common passage (`PassageProof.through`), scores are local (`walk_local`), so the front part of the way is the chosen way of the front texts and the back part, shifted, that of the back texts (`split_pairs`). The layout of the columns (C60) then splits in the same way. Since collate raises on empty witnesses, the common beginning and the common ending are separate theorems.
* C111 with near matching (`Props_nearsplit.v`, `NearSplitProof.v`): the columns of C105 (`near_layout`) are cut in the same way, since the tokens between two pairs are placed by comparing only tokens of that stretch.
* C112: HeurModel.v has the table of `_create_heuristic_table`; entries by computation, the lower bound by induction on the way (AStarSpec.v). `C112_end_refuted` shows that the condition on the lengths is needed: the aligner gives the length of the witness twice.
* C113: TraceModel.v is the construction of SuffixModel with the counter and the reports; printing a report is a parameter that may raise. TraceProof.v: the traced construction gives the array of the other one, and the operations returned are those of `_nbOperations`, by induction on the recursion (a recursion happens only with two names or more, `one_name`); linear bound by strong induction.
* C55 printing: the rows or columns given to PrettyTable; PrettyTable's own drawing is not modelled.

## Trusted base

* Coq's kernel (8.16.1), including its virtual machine (`vm_compute` evaluates the concrete examples
  and refutations; the general theorems do not use it except to compare string literals).
* `Print Assumptions` is run after every property theorem in `Props_*.v`: each one answers
  "Closed under the global context". No axiom is used. (A list of every axiom in loaded libraries also
  shows the constants of `Coq.ssr.ssrunder`; no theorem here depends on them.)
* The reading of the Python code recorded in the comments of the model: each definition cites the file and
  lines it models and says what it leaves out.
* The small specifications (`*Spec.v`), which give the properties their meaning.

### What is modelled

Paths are relative to `/repo/collatex-pythonport/collatex`.

| file | modelled in | not modelled |
| --- | --- | --- |
| core_classes.py | TokenModel, IndexModel, GraphModel, QueryModel, TableModel, CollateModel, HtmlModel, AliasModel | PrettyTable, `__repr__`, vertex_attributes (networkx attribute that no longer exists) |
| core_functions.py | CollateModel, ExportModel, JsonModel, TableModel | the IPython display of html and svg |
| linsuffarr.py | SuffixModel, SuffixTextModel, TraceModel (progress reports) | command line tool, byte strings, pickle and gzip themselves |
| tokenindex.py, block.py | IndexModel, BlockModel | - |
| edit_graph_aligner.py | AlignModel | the commented debug table |
| near_matching.py | NearModel | Levenshtein.ratio is a parameter |
| exceptions.py | Py | messages |
| ClusterShell/RangeSet.py | RangeSetModel, RangeMoreModel, RangeArgModel, RangeOldModel | - |
| astar.py, experimental_astar_aligner.py | AStarModel, ScorerModel (collate), HeurModel | the decision tree classes, debug output |
| suffix_based_scorer.py | AStarModel (cell scores, heuristic), ScorerModel | the part of the block selection after its first step, which always raises |
| display_module.py, HTML.py | DrawModel (graph as data), HtmlModel (html2), HtmlLibModel (the classes of HTML.py) | graphviz layout, the plain html page |
| transposition_handling.py | PhraseModel; TranspositionDetection only as raising AttributeError | TranspositionDetector.detect after the sorted(cmp=...) that raises |
| extended_suffix_array.py | ExtBlockModel | negative positions |

External libraries (networkx topological sort, Levenshtein, character classes of `re`, textwrap) are
parameters of the theorems, constrained only by the hypotheses shown in each statement.
