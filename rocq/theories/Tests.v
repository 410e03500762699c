(** The unit tests of /repo/collatex-pythonport/tests replayed on the model by computation.  They
    are tests of the model's faithfulness to the code, not proofs of properties.  Characters are
    classified as in ASCII, vertices are ordered as by networkx (Kahn's algorithm), texts are not
    wrapped (all are shorter than 20 characters). *)
From Verif Require Import Py TokenModel SuffixModel IndexModel GraphModel AlignModel TableModel NearModel ExportModel
  CollateModel JsonModel HtmlModel AStarModel RangeSetModel Samples.
From Coq Require Import String QArith.
Open Scope string_scope.
Open Scope list_scope.
Open Scope nat_scope.

Definition col (l : list (string * string)) : res collation :=
  foldM (fun c '(sg, s) => add_plain_witness ascii_cc c (lit sg) (lit s)) l collation_empty.
Definition run (c : res collation) (o : options) : res output := c <- c ;; collate ascii_cc kahn sample_ratio c o.
(** Row.to_list_of_strings of all rows. *)
Definition strings (c : res collation) (o : options) : res (list (list (option str))) :=
  x <- run c o ;; match x with OTable t => mapM row_strings (t_rows t) | _ => Raise TypeError end.
Definition variants (c : res collation) (o : options) : res (list bool) :=
  x <- run c o ;; match x with OTable t => Ok (map c_variant (t_columns t)) | _ => Raise TypeError end.
Definition printed_as (layout : string) (c : res collation) (o : options) : res printed :=
  x <- run c o ;; match x with OTable t => print_table (fun s => s) ascii_cc (lit layout) t | _ => Raise TypeError end.
Definition some (s : string) : option str := Some (lit s).
Definition rows (l : list (list string)) : res printed := Ok (PRows (map (map lit) l)).
Definition columns (l : list (string * list string)) : res printed := Ok (PColumns (map (fun '(h, c) => (lit h, map lit c)) l)).
Definition seg := seg_options "table".
Definition noseg := plain_options "table".
Definition near := near_options "table".

(** test_collatex_simple.py *)
Example test_tokenize : tokenize ascii_cc (lit "a b c") = map lit ["a "; "b "; "c"].
Proof. vm_compute. reflexivity. Qed.

(** test_witness_tokens.py *)
Example testPlainWitness : (c <- col [("A", "The quick brown fox jumped over the lazy dogs.")] ;; Ok (map (fun w => List.length (w_toks w)) c)) = Ok [10].
Proof. vm_compute. reflexivity. Qed.
Definition tk (l : list (string * jval)) : jval := JObj (map (fun '(k, v) => (lit k, v)) l).
Definition js (s : string) : jval := JStr (lit s).
Definition wit (sg : string) (l : list jval) : jval := JObj [(lit "id", js sg); (lit "tokens", JArr l)].
Definition dict (l : list jval) : jdict := [(lit "witnesses", JArr l)].
Definition from (d : jdict) : res collation := create_from_dict ascii_cc d None.
Definition pretokenized : jdict := dict
  [wit "A" [tk [("t", js "A"); ("ref", JNum 123)]; tk [("t", js "black"); ("adj", JBool true)]; tk [("t", js "cat"); ("id", js "xyz")]; tk [("t", js "bird"); ("id", js "abc")]];
   wit "B" [tk [("t", js "A")]; tk [("t", js "white"); ("adj", JBool true)]; tk [("t", js "mousedog bird"); ("adj", JBool false)]]].
Example testPretokenizedWitness : exists r0 r1, strings (from pretokenized) noseg = Ok [r0; r1] /\ List.length r0 = 4 /\ List.length r1 = 4 /\ In (some "mousedog bird") r1.
Proof. eexists. eexists. split; [vm_compute; reflexivity|]. split; [reflexivity|]. split; [reflexivity|]. cbn. tauto. Qed.

(** test_alignment_table_rendering.py *)
Definition wombat := col [("A", "This very quick very quick brown wombat"); ("B", "That very quick brown koala"); ("C", "That very quick brown kangaroo")].
Example testPlainTableRendering : printed_as "horizontal" wombat seg = rows
  [["A"; "This very quick"; "very quick brown"; "wombat"]; ["B"; "That"; "very quick brown"; "koala"]; ["C"; "That"; "very quick brown"; "kangaroo"]].
Proof. vm_compute. reflexivity. Qed.
Example testPlainTableRenderingNoParallelSegmentation : printed_as "horizontal" wombat noseg = rows
  [["A"; "This"; "very"; "quick"; "very"; "quick"; "brown"; "wombat"]; ["B"; "That"; "-"; "-"; "very"; "quick"; "brown"; "koala"];
   ["C"; "That"; "-"; "-"; "very"; "quick"; "brown"; "kangaroo"]].
Proof. vm_compute. reflexivity. Qed.
(** textwrap.fill also drops the blank at the end of a text. *)
Example testPlainTableRenderingVertical : (x <- run wombat seg ;; match x with OTable t => print_table (rstrip ascii_cc) ascii_cc (lit "vertical") t | _ => Raise TypeError end) = columns
  [("A", ["This very quick"; "very quick brown"; "wombat"]); ("B", ["That"; "very quick brown"; "koala"]); ("C", ["That"; "very quick brown"; "kangaroo"])].
Proof. vm_compute. reflexivity. Qed.
Example testPlainTableRenderingVerticalNoSegmentation : (x <- run wombat noseg ;; match x with OTable t => print_table (rstrip ascii_cc) ascii_cc (lit "vertical") t | _ => Raise TypeError end) = columns
  [("A", ["This"; "very"; "quick"; "very"; "quick"; "brown"; "wombat"]); ("B", ["That"; "-"; "-"; "very"; "quick"; "brown"; "koala"]);
   ("C", ["That"; "-"; "-"; "very"; "quick"; "brown"; "kangaroo"])].
Proof. vm_compute. reflexivity. Qed.
Definition entry (n sg t : string) (p : Z) : jval := tk [("t", js t); ("n", js n); ("_sigil", js sg); ("_token_array_position", JNum p)].
Example testJSONAlignmentTableRendering : run wombat (seg_options "json") = Ok (OJson (tk
  [("table", JArr
     [JArr [JArr [entry "This" "A" "This " 0; entry "very" "A" "very " 1; entry "quick" "A" "quick " 2];
            JArr [entry "very" "A" "very " 3; entry "quick" "A" "quick " 4; entry "brown" "A" "brown " 5]; JArr [entry "wombat" "A" "wombat" 6]];
      JArr [JArr [entry "That" "B" "That " 8]; JArr [entry "very" "B" "very " 9; entry "quick" "B" "quick " 10; entry "brown" "B" "brown " 11]; JArr [entry "koala" "B" "koala" 12]];
      JArr [JArr [entry "That" "C" "That " 14]; JArr [entry "very" "C" "very " 15; entry "quick" "C" "quick " 16; entry "brown" "C" "brown " 17]; JArr [entry "kangaroo" "C" "kangaroo" 18]]]);
   ("witnesses", JArr [js "A"; js "B"; js "C"])])).
Proof. vm_compute. reflexivity. Qed.
Example testJSONAlignmentTableRenderingNoSegmentation : run wombat (plain_options "json") = Ok (OJson (tk
  [("table", JArr
     [JArr [JArr [entry "This" "A" "This " 0]; JArr [entry "very" "A" "very " 1]; JArr [entry "quick" "A" "quick " 2];
            JArr [entry "very" "A" "very " 3]; JArr [entry "quick" "A" "quick " 4]; JArr [entry "brown" "A" "brown " 5]; JArr [entry "wombat" "A" "wombat" 6]];
      JArr [JArr [entry "That" "B" "That " 8]; JNull; JNull; JArr [entry "very" "B" "very " 9]; JArr [entry "quick" "B" "quick " 10]; JArr [entry "brown" "B" "brown " 11]; JArr [entry "koala" "B" "koala" 12]];
      JArr [JArr [entry "That" "C" "That " 14]; JNull; JNull; JArr [entry "very" "C" "very " 15]; JArr [entry "quick" "C" "quick " 16]; JArr [entry "brown" "C" "brown " 17]; JArr [entry "kangaroo" "C" "kangaroo" 18]]]);
   ("witnesses", JArr [js "A"; js "B"; js "C"])])).
Proof. vm_compute. reflexivity. Qed.
Definition vertical (o : options) : options :=
  {| o_output := o_output o; o_vertical := true; o_segmentation := o_segmentation o; o_near := o_near o; o_astar := o_astar o;
     o_transp := o_transp o; o_filter := o_filter o; o_indent := o_indent o |}.
Example testJSONAlignmentTableRenderingNoSegmentationVertical : run wombat (vertical (plain_options "json")) = Ok (OJson (tk
  [("table", JArr
     [JArr [JArr [entry "This" "A" "This " 0]; JArr [entry "That" "B" "That " 8]; JArr [entry "That" "C" "That " 14]];
      JArr [JArr [entry "very" "A" "very " 1]; JNull; JNull]; JArr [JArr [entry "quick" "A" "quick " 2]; JNull; JNull];
      JArr [JArr [entry "very" "A" "very " 3]; JArr [entry "very" "B" "very " 9]; JArr [entry "very" "C" "very " 15]];
      JArr [JArr [entry "quick" "A" "quick " 4]; JArr [entry "quick" "B" "quick " 10]; JArr [entry "quick" "C" "quick " 16]];
      JArr [JArr [entry "brown" "A" "brown " 5]; JArr [entry "brown" "B" "brown " 11]; JArr [entry "brown" "C" "brown " 17]];
      JArr [JArr [entry "wombat" "A" "wombat" 6]; JArr [entry "koala" "B" "koala" 12]; JArr [entry "kangaroo" "C" "kangaroo" 18]]]);
   ("witnesses", JArr [js "A"; js "B"; js "C"])])).
Proof. vm_compute. reflexivity. Qed.
Definition fox := [("A", "The quick brown fox jumps over the dog."); ("B", "The brown fox jumps over the lazy dog.")].
Example testColumnStatusInAlignmentTable : variants (col fox) seg = Ok [false; true; false; true; false].
Proof. vm_compute. reflexivity. Qed.
(** The second half collates again the same object with a further witness. *)
Example testColumnStatusInAlignmentTable2 :
  (c <- col fox ;; c' <- add_plain_witness ascii_cc (collate_effect c seg) (lit "C") (lit "The brown fox walks around the lazy dog.") ;;
   variants (Ok (collate_effect c' seg)) seg) = Ok [false; true; false; true; false; true; false].
Proof. vm_compute. reflexivity. Qed.

(** test_edit_graph_aligner.py *)
Example test_duplicated_tokens_in_witness : strings (col [("A", "a"); ("B", "b"); ("C", "c"); ("D", "a a")]) seg =
  Ok [[None; some "a"]; [some "b"; None]; [some "c"; None]; [some "a "; some "a"]].
Proof. vm_compute. reflexivity. Qed.
Definition indent (o : options) : options :=
  {| o_output := o_output o; o_vertical := o_vertical o; o_segmentation := o_segmentation o; o_near := o_near o; o_astar := o_astar o;
     o_transp := o_transp o; o_filter := o_filter o; o_indent := true |}.
Definition nl : string := String (Ascii.ascii_of_nat 10) EmptyString.
Definition tb : string := String (Ascii.ascii_of_nat 9) EmptyString.
Definition lines (l : list string) : str := flat_map (fun s => lit s ++ lit nl) l.
Definition tei_line1 := "<?xml version=""1.0"" ?>".
Definition tei_line2 := "<cx:apparatus xmlns:cx=""http://interedition.eu/collatex/ns/1.0"" xmlns=""http://www.tei-c.org/ns/1.0"">".
Definition app1 (w t : string) : list string := [tb ++ "<app>"; tb ++ tb ++ "<rdg wit=""" ++ w ++ """>" ++ t ++ "</rdg>"; tb ++ "</app>"]%string.
Example test_duplicated_tokens_in_witness2 : run (col [("A", "a"); ("B", "b"); ("C", "c"); ("D", "a b c a b c")]) (indent (seg_options "tei")) =
  Ok (OTei (lines ([tei_line1; tei_line2] ++ app1 "#D" "a b c" ++ [tb ++ " "]%string ++ app1 "#A #D" "a" ++ [tb ++ " "]%string ++ app1 "#B #D" "b" ++ [tb ++ " "]%string ++
    app1 "#C #D" "c" ++ ["</cx:apparatus>"]))).
Proof. vm_compute. reflexivity. Qed.
Example test_1 : strings (col [("A", "a"); ("B", "b"); ("C", "a b")]) seg = Ok [[some "a"; None]; [None; some "b"]; [some "a "; some "b"]].
Proof. vm_compute. reflexivity. Qed.
Example test_2 : strings (col [("W1", "in the in the bleach"); ("W2", "in the in the bleach in the"); ("W3", "in the in the bleach in the")]) seg =
  Ok [[some "in the in the bleach"; None]; [some "in the in the bleach "; some "in the"]; [some "in the in the bleach "; some "in the"]].
Proof. vm_compute. reflexivity. Qed.
Example test_rank_adjustment : strings (col [("A", "aa bb cc dd ee ff"); ("B", "aa bb ex ff"); ("C", "aa bb cc ee ff"); ("D", "aa bb ex dd ff"); ("E", "aaa aaa aaa aaa aaa")]) seg =
  Ok [[some "aa bb "; some "cc "; some "dd "; some "ee "; some "ff"]; [some "aa bb "; some "ex "; None; None; some "ff"]; [some "aa bb "; some "cc "; None; some "ee "; some "ff"];
      [some "aa bb "; some "ex "; some "dd "; None; some "ff"]; [some "aaa aaa aaa aaa aaa"; None; None; None; None]].
Proof. vm_compute. reflexivity. Qed.
Definition hermans2 := [("W1", "a b c d F g h i ! K ! q r s t"); ("W2", "a b c d F g h i ! q r s t")].
Definition hermans3 := hermans2 ++ [("W3", "a b c d E g h i ! q r s t")].
Example test_non_overlapping_blocks_Hermans : strings (col hermans2) seg =
  Ok [[some "a b c d F g h i "; some "! K "; some "! q r s t"]; [some "a b c d F g h i "; None; some "! q r s t"]].
Proof. vm_compute. reflexivity. Qed.
Example test_blocks_Hermans_case_three_witnesses : strings (col hermans3) seg =
  Ok [[some "a b c d "; some "F "; some "g h i "; some "! K "; some "! q r s t"]; [some "a b c d "; some "F "; some "g h i "; None; some "! q r s t"];
      [some "a b c d "; some "E "; some "g h i "; None; some "! q r s t"]].
Proof. vm_compute. reflexivity. Qed.

(** test_suffix_edit_graph_aligner.py *)
Example test_witness_order : strings (col [("A", "x a y"); ("B", "x b y"); ("C", "x a b y")]) seg =
  Ok [[some "x "; some "a "; None; some "y"]; [some "x "; None; some "b "; some "y"]; [some "x "; some "a "; some "b "; some "y"]].
Proof. vm_compute. reflexivity. Qed.

(** test_beckett.py *)
Example testBeckett : strings (col [("1", "The same clock as when for example Magee once died."); ("2", "The same as when for example Magee once died.")]) seg =
  Ok [[some "The same "; some "clock "; some "as when for example Magee once died."]; [some "The same "; None; some "as when for example Magee once died."]].
Proof. vm_compute. reflexivity. Qed.

(** test_export_alignment_table_as_xml.py *)
Example test_export_alignment_table_as_xml : run (col fox) (seg_options "xml") = Ok (OXml (lit
  "<root><app><rdg wit=""#A"">The </rdg><rdg wit=""#B"">The </rdg></app><app><rdg wit=""#A"">quick </rdg></app><app><rdg wit=""#A"">brown fox jumps over the </rdg><rdg wit=""#B"">brown fox jumps over the </rdg></app><app><rdg wit=""#B"">lazy </rdg></app><app><rdg wit=""#A"">dog.</rdg><rdg wit=""#B"">dog.</rdg></app></root>")).
Proof. vm_compute. reflexivity. Qed.

(** test_export_alignment_table_as_tei.py *)
Definition koala := col [("A", "The quick brown wombat jumps over the industrious brown dog."); ("B", "The brown koala jumps over the lazy yellow dog."); ("C", "The brown koala jumps over the industrious yellow dog.")].
Example test_export_alignment_table_as_tei : run koala (seg_options "tei") = Ok (OTei (lit
  "<?xml version=""1.0"" ?><cx:apparatus xmlns:cx=""http://interedition.eu/collatex/ns/1.0"" xmlns=""http://www.tei-c.org/ns/1.0"">The <app><rdg wit=""#A"">quick</rdg></app> brown <app><rdg wit=""#A"">wombat</rdg><rdg wit=""#B #C"">koala</rdg></app> jumps over the <app><rdg wit=""#A #C"">industrious</rdg><rdg wit=""#B"">lazy</rdg></app> <app><rdg wit=""#A"">brown</rdg><rdg wit=""#B #C"">yellow</rdg></app> dog.</cx:apparatus>")).
Proof. vm_compute. reflexivity. Qed.
Definition app2 (w1 t1 w2 t2 : string) : list string :=
  [tb ++ "<app>"; tb ++ tb ++ "<rdg wit=""" ++ w1 ++ """>" ++ t1 ++ "</rdg>"; tb ++ tb ++ "<rdg wit=""" ++ w2 ++ """>" ++ t2 ++ "</rdg>"; tb ++ "</app>"]%string.
Example test_export_alignment_table_as_tei_prettyprint : run koala (indent (seg_options "tei")) = Ok (OTei (lines
  ([tei_line1; tei_line2; tb ++ "The"; tb ++ " "]%string ++ app1 "#A" "quick" ++ [tb ++ " "; tb ++ "brown"; tb ++ " "]%string ++ app2 "#A" "wombat" "#B #C" "koala" ++
   [tb ++ " "; tb ++ "jumps over the"; tb ++ " "]%string ++ app2 "#A #C" "industrious" "#B" "lazy" ++ [tb ++ " "]%string ++ app2 "#A" "brown" "#B #C" "yellow" ++
   [tb ++ " "; tb ++ "dog."; "</cx:apparatus>"]%string))).
Proof. vm_compute. reflexivity. Qed.

(** test_near_matching.py *)
Definition glass := col [("A", "I bought this glass , because it matches those dinner plates"); ("B", "I bought those glasses")].
Example test_exact_matching : strings glass seg =
  Ok [[some "I bought "; some "this glass , because it matches "; some "those "; some "dinner plates"]; [some "I bought "; None; some "those "; some "glasses"]].
Proof. vm_compute. reflexivity. Qed.
Definition near_seg : options :=
  {| o_output := lit "table"; o_vertical := false; o_segmentation := true; o_near := true; o_astar := false; o_transp := false; o_filter := None; o_indent := false |}.
Example test_near_matching : run glass near_seg = Raise SegmentationError.
Proof. vm_compute. reflexivity. Qed.
Example test_near_matching_accidentally_correct_short : printed_as "horizontal" (col [("A", "over this dog"); ("B", "over that there dog")]) near =
  rows [["A"; "over"; "this"; "-"; "dog"]; ["B"; "over"; "that"; "there"; "dog"]].
Proof. vm_compute. reflexivity. Qed.
Example test_near_matching_accidentally_incorrect_short : printed_as "horizontal" (col [("A", "over this dog"); ("B", "over there that dog")]) near =
  rows [["A"; "over"; "-"; "this"; "dog"]; ["B"; "over"; "there"; "that"; "dog"]].
Proof. vm_compute. reflexivity. Qed.
Example test_near_matching_accidentally_correct_long : printed_as "horizontal" (col [("A", "The brown fox jumps over this dog."); ("B", "The brown fox jumps over that there dog.")]) near =
  rows [["A"; "The"; "brown"; "fox"; "jumps"; "over"; "this"; "-"; "dog"; "."]; ["B"; "The"; "brown"; "fox"; "jumps"; "over"; "that"; "there"; "dog"; "."]].
Proof. vm_compute. reflexivity. Qed.
Example test_near_matching_rank_0 : printed_as "horizontal" (col [("A", "this"); ("B", "there thin")]) near = rows [["A"; "-"; "this"]; ["B"; "there"; "thin"]].
Proof. vm_compute. reflexivity. Qed.
Example test_near_matching_nonclash : printed_as "horizontal" (col [("A", "aaa bbb ccc ddd"); ("B", "aaa cce ddd"); ("C", "aaa cce ddd")]) near =
  rows [["A"; "aaa"; "bbb"; "ccc"; "ddd"]; ["B"; "aaa"; "-"; "cce"; "ddd"]; ["C"; "aaa"; "-"; "cce"; "ddd"]].
Proof. vm_compute. reflexivity. Qed.

(** test_near_matching_pretokenized.py *)
Definition glass_json : jdict := dict
  [wit "A" [tk [("t", js "I"); ("ref", JNum 123)]; tk [("t", js "bought"); ("adj", JBool true)]; tk [("t", js "this"); ("id", js "x3")]; tk [("t", js "glass"); ("id", js "x4")];
            tk [("t", js ","); ("type", js "punct")]; tk [("t", js "because"); ("id", js "x5")]; tk [("t", js "it"); ("id", js "x6")]; tk [("t", js "matches")];
            tk [("t", js "those"); ("id", js "x7")]; tk [("t", js "dinner"); ("id", js "x8")]; tk [("t", js "plates"); ("id", js "x9")]; tk [("t", js "."); ("type", js "punct")]];
   wit "B" [tk [("t", js "I")]; tk [("t", js "bought"); ("adj", JBool true)]; tk [("t", js "those"); ("id", js "abc")]; tk [("t", js "glasses"); ("id", js "xyz")]; tk [("t", js "."); ("type", js "punct")]]].
Definition first_row_glass := map some ["I"; "bought"; "this"; "glass"; ","; "because"; "it"; "matches"; "those"; "dinner"; "plates"; "."].
Example test_exact_matching_pretokenized : strings (from glass_json) noseg =
  Ok [first_row_glass; [some "I"; some "bought"; None; None; None; None; None; None; some "those"; some "glasses"; None; some "."]].
Proof. vm_compute. reflexivity. Qed.
Example test_near_matching_pretokenized : strings (from glass_json) near =
  Ok [first_row_glass; [some "I"; some "bought"; None; None; None; None; None; None; some "those"; None; some "glasses"; some "."]].
Proof. vm_compute. reflexivity. Qed.

(** test_tokenized_json.py *)
Definition cat_A := wit "A" [tk [("t", js "A"); ("ref", JNum 123)]; tk [("t", js "black"); ("adj", JBool true)]; tk [("t", js "cat"); ("id", js "xyz")]].
Definition cats : jdict := dict [cat_A; wit "B" [tk [("t", js "A")]; tk [("t", js "white"); ("adj", JBool true)]; tk [("t", js "kitten."); ("n", js "cat")]]].
Definition at_ (sg : string) (p : Z) (l : list (string * jval)) : jval := tk (l ++ [("_sigil", js sg); ("_token_array_position", JNum p)]).
Definition row_A : jval := JArr [JArr [at_ "A" 0 [("t", js "A"); ("ref", JNum 123)]]; JArr [at_ "A" 1 [("t", js "black"); ("adj", JBool true)]]; JArr [at_ "A" 2 [("t", js "cat"); ("id", js "xyz")]]].
Definition result (l : list jval) : res output := Ok (OJson (tk [("table", JArr l); ("witnesses", JArr [js "A"; js "B"])])).
Example testJSONOutputPretokenizedJSON : collate_dict ascii_cc kahn sample_ratio cats (seg_options "json") =
  result [row_A; JArr [JArr [at_ "B" 4 [("t", js "A")]]; JArr [at_ "B" 5 [("t", js "white"); ("adj", JBool true)]]; JArr [at_ "B" 6 [("t", js "kitten."); ("n", js "cat")]]]].
Proof. vm_compute. reflexivity. Qed.
Definition cats2 : jdict := dict [cat_A; wit "B" [tk [("t", js "A")]; tk [("t", js "kitten."); ("n", js "cat")]]].
Example testJSONOutput_empty_cells_in_output : collate_dict ascii_cc kahn sample_ratio cats2 (seg_options "json") =
  result [row_A; JArr [JArr [at_ "B" 4 [("t", js "A")]]; JNull; JArr [at_ "B" 5 [("t", js "kitten."); ("n", js "cat")]]]].
Proof. vm_compute. reflexivity. Qed.
Example testHTMLOutputPretokenizedJSON : printed_as "horizontal" (from cats) seg = rows [["A"; "A"; "black"; "cat"]; ["B"; "A"; "white"; "kitten."]].
Proof. vm_compute. reflexivity. Qed.
Example testHTMLOutputVerticalLayoutPretokenizedJSON : printed_as "vertical" (from cats) seg = columns [("A", ["A"; "black"; "cat"]); ("B", ["A"; "white"; "kitten."])].
Proof. vm_compute. reflexivity. Qed.
Definition cats3 : jdict := dict [cat_A; wit "B" [tk [("t", js "A")]; tk [("t", js "white"); ("adj", JBool true)]; tk [("t", js "stripy"); ("adj", JBool true)]; tk [("t", js "kitten."); ("n", js "cat")]]].
Example testSegmentationPretokenizedJSON : collate_dict ascii_cc kahn sample_ratio cats3 (seg_options "json") =
  result [row_A; JArr [JArr [at_ "B" 4 [("t", js "A")]]; JArr [at_ "B" 5 [("t", js "white"); ("adj", JBool true)]; at_ "B" 6 [("t", js "stripy"); ("adj", JBool true)]];
                       JArr [at_ "B" 7 [("t", js "kitten."); ("n", js "cat")]]]].
Proof. vm_compute. reflexivity. Qed.

(** test_suffix_based_scorer.py *)
Fixpoint same_dict (a b : jdict) : bool :=
  match a, b with
  | [], [] => true
  | (k, JStr v) :: a', (k', JStr v') :: b' => str_eqb k k' && str_eqb v v' && same_dict a' b'
  | _, _ => false
  end.
Definition with_filter : options :=
  {| o_output := lit "table"; o_vertical := false; o_segmentation := false; o_near := false; o_astar := false; o_transp := false; o_filter := Some same_dict; o_indent := false |}.
Definition filler (l : list (string * jval)) : jdict := dict [wit "A" [tk [("t", js "filler1")]; tk [("t", js "token")]]; wit "B" [tk (("t", js "token") :: l); tk [("t", js "filler2")]]].
Example test_scoring_with_properties_filter :
  printed_as "horizontal" (from (filler [("rend", js "b")])) noseg = rows [["A"; "filler1"; "token"; "-"]; ["B"; "-"; "token"; "filler2"]] /\
  printed_as "horizontal" (from (filler [("rend", js "b")])) with_filter = rows [["A"; "filler1"; "token"]; ["B"; "token"; "filler2"]] /\
  printed_as "horizontal" (from (filler [])) with_filter = rows [["A"; "filler1"; "token"; "-"]; ["B"; "-"; "token"; "filler2"]].
Proof. vm_compute. auto. Qed.

(** test_tokenindex.py *)
Definition index (l : list (string * string)) : res tindex := c <- col l ;; prepare c.
Example test_token_array_hermans_case : (ti <- index hermans2 ;; Ok (str_join (lit " ") (map tk_str (ti_array ti)))) =
  Ok (lit "a b c d F g h i ! K ! q r s t $0 a b c d F g h i ! q r s t").
Proof. vm_compute. reflexivity. Qed.
Example testTokenArrayMarkersWithThreeWitnesses : (ti <- index [("W1", "interesting nice huh"); ("W2", "very nice right"); ("W3", "especially interesting")] ;;
    Ok (str_join (lit " ") (map tk_str (ti_array ti)))) = Ok (lit "interesting nice huh $0 very nice right $1 especially interesting").
Proof. vm_compute. reflexivity. Qed.
Example test_witness_ranges_hermans_case : (ti <- index hermans2 ;; a <- get_range_for_witness ti (lit "W1") ;; b <- get_range_for_witness ti (lit "W2") ;; Ok (a, b)) = Ok (seq 0 15, seq 16 13).
Proof. vm_compute. reflexivity. Qed.
Definition stoekl := [("W1", "a b c d e"); ("W2", "a e c d"); ("W3", "a d b")].
Example testCaseDanielStoekl : (ti <- index stoekl ;; Ok (ti_lcp ti)) = Ok [0; 0; 0; 1; 1; 0; 1; 0; 2; 0; 1; 1; 0; 1].
Proof. vm_compute. reflexivity. Qed.
(** start, length, depth and number of occurrences of every block *)
Definition facts (ti : tindex) : res (list (nat * nat * nat * nat)) :=
  mapM (fun b => d <- block_depth (ti_array ti) (ti_sa ti) b ;; l <- block_instances (ti_sa ti) b ;; Ok (b_start b, b_len b, d, List.length l)) (ti_blocks ti).
Example testCaseDanielStoeklLCPIntervals : (ti <- index stoekl ;; facts ti) = Ok [(2, 1, 3, 3); (5, 1, 2, 2); (7, 2, 2, 2); (9, 1, 3, 3); (12, 1, 2, 2)].
Proof. vm_compute. reflexivity. Qed.
(** start, length and number of occurrences *)
Definition intervals (l : list nat) : res (list (nat * nat * nat)) := bs <- split_lcp l ;; Ok (map (fun b => (b_start b, b_len b, block_frequency b)) bs).
Example test_split_lcp_intervals_ascending_descending_ascending : exists l, intervals [0; 4; 143; 87; 1; 1; 12; 93; 93; 37] = Ok l /\
  forall x, In x [(1, 143, 2); (1, 87, 3); (0, 4, 4); (6, 93, 3); (0, 1, 10); (5, 12, 5); (6, 37, 4)] -> In x l.
Proof. eexists. split; [vm_compute; reflexivity|]. intros x Hx. cbn [In] in Hx |- *. tauto. Qed.
Example test_split_lcp_intervals_ascending_then_descending_LCP : exists l, intervals [0; 10; 149; 93; 7; 1] = Ok l /\ List.length l = 5 /\
  forall x, In x [(0, 10, 4); (1, 149, 2); (1, 93, 3); (0, 7, 5); (0, 1, 6)] -> In x l.
Proof. eexists. split; [vm_compute; reflexivity|]. split; [reflexivity|]. intros x Hx. cbn [In] in Hx |- *. tauto. Qed.
Example test_split_lcp_intervals_descending_LCP : exists l, intervals [0; 20; 20; 20; 4] = Ok l /\ List.length l = 2 /\ forall x, In x [(0, 20, 4); (0, 4, 5)] -> In x l.
Proof. eexists. split; [vm_compute; reflexivity|]. split; [reflexivity|]. intros x Hx. cbn [In] in Hx |- *. tauto. Qed.
Example test_lcp_intervals_number_of_witnesses_Hermans_case : (ti <- index hermans3 ;; l <- facts ti ;; match nth_error l 1 with Some (_, _, d, _) => Ok d | None => Raise IndexError end) = Ok 3.
Proof. vm_compute. reflexivity. Qed.
Example test_filter_potential_blocks : (ti <- index [("W1", "a a"); ("w2", "a")] ;; l <- facts ti ;; match l with (_, len, d, n) :: _ => Ok (d, len, n) | [] => Raise IndexError end) = Ok (2, 1, 3).
Proof. vm_compute. reflexivity. Qed.

(** test_variant_graph.py: the tokens of a vertex with a given label *)
Definition vertex_with (g : graph) (s : string) : option (list (str * list str)) :=
  match filter (fun v => str_eqb (v_label (snd v)) (lit s)) (g_verts g) with
  | v :: _ => Some (map (fun '(sg, ts) => (sg, map tk_str ts)) (v_tokens (snd v)))
  | [] => None
  end.
Example test_storage_of_tokens_on_variant_graph : exists g, run (col [("A", "a b c"); ("B", "a d c")]) (seg_options "graph") = Ok (OGraph g) /\
  vertex_with g "start" = Some [] /\ vertex_with g "end" = Some [] /\
  vertex_with g "b" = Some [(lit "A", [lit "b"])] /\ vertex_with g "d" = Some [(lit "B", [lit "d"])] /\
  vertex_with g "a" = Some [(lit "A", [lit "a"]); (lit "B", [lit "a"])] /\ vertex_with g "c" = Some [(lit "A", [lit "c"]); (lit "B", [lit "c"])].
Proof. eexists. split; [vm_compute; reflexivity|]. vm_compute. auto 10. Qed.

(** test_astar_edit_graph_aligner.py: the scores of the model are counted in halves *)
Example test_heuristic_function_everything_equals :
  map (fun y => map (fun x => Z.div (heuristic nat [0; 1] (y, x)) 2) [0; 1; 2]) [0; 1; 2] = [[0; 1; 2]; [1; 0; 1]; [2; 1; 0]]%Z.
Proof. vm_compute. reflexivity. Qed.
