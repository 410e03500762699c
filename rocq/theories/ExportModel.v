(** Model of the exports of the alignment table: JSON (as a value), CSV/TSV, XML and
    TEI (collatex/core_functions.py:92-186, collatex/display_module.py:52-64,
    collatex/core_classes.py:60-61).  The standard-library writers used by the code
    (csv.writer, io.StringIO, ElementTree, minidom) are modelled after CPython 3.11. *)
From Verif Require Import Py TokenModel SuffixModel IndexModel GraphModel TableModel.

(** [[listItem.token_data for listItem in cell] if cell else None] core_functions.py:103 and 115. *)
Definition cell_json (c : cell) : jval :=
  match c with
  | None | Some [] => JNull
  | Some ts => JArr (map (fun t => JObj (tk_data t)) ts)
  end.

(** core_functions.py:109-122  export_alignment_table_as_json.  json.dumps itself is
    not modelled: the result is the value that is dumped. *)
Definition export_json (status : bool) (t : table) : jval :=
  JObj ([(lit "table", JArr (map (fun r => JArr (map cell_json (r_cells r))) (t_rows t)));
         (lit "witnesses", JArr (map (fun r => JStr (r_header r)) (t_rows t)))]
        ++ if status then [(lit "status", JArr (map (fun c => JBool (c_variant c)) (t_columns t)))]
           else []).

(** core_functions.py:92-106  export_alignment_table_as_vertical_json. *)
Definition add_siglum (sigla : list str) (s : str) : list str :=
  if existsb (str_eqb s) sigla then sigla else sigla ++ [s].
(** core_functions.py:95-105: the value that is written. *)
Definition export_vertical_json (t : table) (wits : list str) : jval :=
  let sigla := fold_left (fun acc (_ : column) => fold_left add_siglum wits acc) (t_columns t) [] in
  JObj [(lit "table",
         JArr (map (fun c => JArr (map (fun s => cell_json (dget str_eqb s (c_cells c))) wits))
                   (t_columns t)));
        (lit "witnesses", JArr (map JStr sigla))].

(** [item.token_data["t"]] used as a string: KeyError when missing, TypeError when it
    is not a string (simplification for the xml export, where [str(...)] is applied). core_functions.py:132, 151 and core_classes.py:61. *)
Definition token_t (t : token) : res str :=
  v <- dgetE str_eqb (lit "t") (tk_data t) ;;
  match v with JStr s => Ok s | _ => Raise TypeError end.
(** core_functions.py:132, 151 and core_classes.py:61: the texts of a cell joined. *)
Definition cell_text (ts : list token) : res str :=
  l <- mapM token_t ts ;; Ok (concat l).

(** core_classes.py:60-61  Row.to_list_of_strings *)
Definition cell_string (c : cell) : res (option str) :=
  match c with
  | None | Some [] => Ok None
  | Some ts => s <- cell_text ts ;; Ok (Some s)
  end.
(** core_classes.py:60-61: all cells of a row. *)
Definition row_strings (r : row) : res (list (option str)) := mapM cell_string (r_cells r).

(** csv.writer with the dialects "excel" and "excel-tab": QUOTE_MINIMAL, quote
    character U+0022, doubled inside quoted fields, line terminator CR LF. Used by display_module.py:57-63. *)
Definition c_quote : N := 34%N.
(** CR, in the line terminator of the writer of display_module.py:57-59. *)
Definition c_cr : N := 13%N.
(** LF, in the line terminator of the writer of display_module.py:57-59. *)
Definition c_lf : N := 10%N.
(** The delimiter of display_module.py:59. *)
Definition c_comma : N := 44%N.
(** The delimiter of display_module.py:57. *)
Definition c_tab : N := 9%N.

(** display_module.py:63 writerow: the characters that make a field quoted. *)
Definition csv_special (delim : N) (c : N) : bool :=
  ((c =? delim) || (c =? c_quote) || (c =? c_cr) || (c =? c_lf))%N%bool.
(** display_module.py:63 writerow: one field; None is written as an empty field. *)
Definition csv_field (delim : N) (single : bool) (f : option str) : str :=
  let s := match f with Some s => s | None => [] end in
  let quoted := existsb (csv_special delim) s || (single && match s with [] => true | _ => false end) in
  if quoted then
    [c_quote] ++ flat_map (fun c => if N.eqb c c_quote then [c_quote; c_quote] else [c]) s ++ [c_quote]
  else s.
(** display_module.py:63 writerow: one row. *)
Definition csv_row (delim : N) (fields : list (option str)) : str :=
  str_join [delim] (map (csv_field delim (length fields =? 1)) fields) ++ [c_cr; c_lf].

(** io.StringIO(newline=None).write: universal newline translation of the written text. display_module.py:55, 63-64. *)
Fixpoint universal_newlines (s : str) : str :=
  match s with
  | [] => []
  | c :: s' =>
    if N.eqb c c_cr then
      c_lf :: match s' with
              | d :: s'' => if N.eqb d c_lf then universal_newlines s'' else universal_newlines s'
              | [] => []
              end
    else c :: universal_newlines s'
  end.

(** display_module.py:52-64  display_alignment_table_as_csv *)
Definition export_csv (tsv : bool) (t : table) : res str :=
  let delim := if tsv then c_tab else c_comma in
  rows <- mapM (fun r => l <- row_strings r ;; Ok (Some (r_header r) :: l)) (t_rows t) ;;
  Ok (flat_map (fun r => universal_newlines (csv_row delim r)) rows).

(** [sorted(column.tokens_per_witness.items())]: by key (keys are distinct). core_functions.py:129, 149. *)
Fixpoint insert_item {V} (x : str * V) (l : list (str * V)) : list (str * V) :=
  match l with
  | [] => [x]
  | y :: l' => if str_ltb (fst y) (fst x) then y :: insert_item x l' else x :: l
  end.
(** core_functions.py:129, 149. *)
Definition sort_items {V} (l : list (str * V)) : list (str * V) := fold_right insert_item [] l.

(** ElementTree._escape_cdata and _escape_attrib Used by core_functions.py:135. *)
Definition xml_escape_text (s : str) : str :=
  flat_map (fun c => if N.eqb c 38 then lit "&amp;" else if N.eqb c 60 then lit "&lt;"
                     else if N.eqb c 62 then lit "&gt;" else [c]) s.
(** The value of an attribute, written by core_functions.py:135. *)
Definition xml_escape_attr (s : str) : str :=
  flat_map (fun c => if N.eqb c 38 then lit "&amp;" else if N.eqb c 60 then lit "&lt;"
                     else if N.eqb c 62 then lit "&gt;" else if N.eqb c 34 then lit "&quot;"
                     else if N.eqb c 13 then lit "&#13;" else if N.eqb c 10 then lit "&#10;"
                     else if N.eqb c 9 then lit "&#09;" else [c]) s.

(** The quotation mark around attribute values, core_functions.py:135. *)
Definition dq : str := [34%N].

(** core_functions.py:129-135: one rdg element, one app element. *)
Definition xml_rdg (wit text : str) : str :=
  lit "<rdg wit=" ++ dq ++ xml_escape_attr (lit "#" ++ wit) ++ dq ++
  match text with
  | [] => lit " />"
  | _ => lit ">" ++ xml_escape_text text ++ lit "</rdg>"
  end.
(** core_functions.py:128-135: the text of one app element; without rdg it is an empty tag. *)
Definition xml_app (rdgs : list (str * str)) : str :=
  match rdgs with
  | [] => lit "<app />"
  | _ => lit "<app>" ++ flat_map (fun '(w, t) => xml_rdg w t) rdgs ++ lit "</app>"
  end.
(** core_functions.py:129-132: sigla and texts of a column. *)
Definition column_readings (c : column) : res (list (str * str)) :=
  mapM (fun '(sg, ts) => t <- cell_text ts ;; Ok (sg, t)) (sort_items (c_cells c)).

(** core_functions.py:125-137  export_alignment_table_as_xml *)
Definition export_xml (t : table) : res str :=
  apps <- mapM column_readings (t_columns t) ;;
  Ok (lit "<root>" ++ flat_map xml_app apps ++ lit "</root>").

(** core_functions.py:140-186  export_alignment_table_as_tei *)
Definition strip (cc : cclass) (s : str) : str :=
  rstrip cc (snd (span (iss cc) s)).

(** core_functions.py:152: str.endswith. *)
Fixpoint is_suffix_of (suf s : str) : bool :=
  str_eqb suf s || match s with [] => false | _ :: s' => is_suffix_of suf s' end.
(** [endswith((" ", r"\u0009", r"\000a"))]: raw strings, so the last two are the
    literal texts backslash-u0009 and backslash-000a. core_functions.py:152. *)
Definition tei_ws (s : str) : bool :=
  is_suffix_of (lit " ") s || is_suffix_of (92%N :: lit "u0009") s || is_suffix_of (92%N :: lit "000a") s.

(** core_functions.py:166-167, 170-178, 180-181: a text or an app appended to the root. *)
Inductive tei_item :=
| TeiText (s : str)
| TeiApp (rdgs : list (str * list str)).      (* reading, sigla *)

(** core_functions.py:147-154: group the witnesses by stripped reading. *)
Definition tei_group (cc : cclass) (rs : list (str * str)) : list (str * list str) :=
  fold_left (fun d '(sg, t) =>
               let k := strip cc t in
               let old := match dget str_eqb k d with Some l => l | None => [] end in
               dset str_eqb k (old ++ [sg]) d) rs [].

(** core_functions.py:146-181: items emitted for one column. *)
Definition tei_column (cc : cclass) (nrows : nat) (c : column) : res (list tei_item) :=
  rs <- column_readings c ;;
  let ws := existsb (fun '(_, t) => tei_ws t) rs in
  let groups := tei_group cc rs in
  let main := match groups with
              | [(k, sgs)] => if length sgs =? nrows then TeiText k else TeiApp groups
              | _ => TeiApp groups
              end in
  Ok (main :: if ws then [TeiText (lit " ")] else []).

(** core_functions.py:146-181: the items of all columns. *)
Definition tei_items (cc : cclass) (t : table) : res (list tei_item) :=
  l <- mapM (tei_column cc (length (t_rows t))) (t_columns t) ;; Ok (concat l).

(** minidom _write_data (3.11) Used by core_functions.py:183, 185. *)
Definition minidom_escape (s : str) : str :=
  flat_map (fun c => if N.eqb c 38 then lit "&amp;" else if N.eqb c 60 then lit "&lt;"
                     else if N.eqb c 34 then lit "&quot;" else if N.eqb c 62 then lit "&gt;"
                     else [c]) s.

(** core_functions.py:175: the wit attribute. *)
Definition tei_wit (sgs : list str) : str := str_join (lit " ") (map (fun s => lit "#" ++ s) sgs).
(** core_functions.py:174-178: one rdg, as toxml writes it (core_functions.py:185). *)
Definition tei_rdg (r : str * list str) : str :=
  lit "<rdg wit=" ++ dq ++ minidom_escape (tei_wit (snd r)) ++ dq ++ lit ">" ++
  minidom_escape (fst r) ++ lit "</rdg>".
(** core_functions.py:185: one item, as toxml writes it. *)
Definition tei_item_xml (i : tei_item) : str :=
  match i with
  | TeiText s => minidom_escape s
  | TeiApp [] => lit "<app/>"
  | TeiApp rs => lit "<app>" ++ flat_map tei_rdg rs ++ lit "</app>"
  end.
(** core_functions.py:142-144: the start tag of the root. *)
Definition tei_open : str :=
  lit "<cx:apparatus xmlns:cx=" ++ dq ++ lit "http://interedition.eu/collatex/ns/1.0" ++ dq ++
  lit " xmlns=" ++ dq ++ lit "http://www.tei-c.org/ns/1.0" ++ dq.
(** core_functions.py:183, 185: the XML declaration. *)
Definition tei_head : str := lit "<?xml version=" ++ dq ++ lit "1.0" ++ dq ++ lit " ?>".
(** Document.toxml().  (A root with exactly one text child and other children are
    written in the same way without indentation.) core_functions.py:185. *)
Definition tei_xml (items : list tei_item) : str :=
  tei_head ++ tei_open ++
  match items with
  | [] => lit "/>"
  | _ => lit ">" ++ flat_map tei_item_xml items ++ lit "</cx:apparatus>"
  end.

(** Document.toprettyxml(): tab indentation, line feeds. Used by core_functions.py:183. *)
Definition lf : str := [c_lf].
(** The indentation of core_functions.py:183. *)
Definition tab : str := [c_tab].
(** core_functions.py:183: one item, as toprettyxml writes it. *)
Definition tei_item_pretty (i : tei_item) : str :=
  match i with
  | TeiText s => minidom_escape (tab ++ s ++ lf)
  | TeiApp [] => tab ++ lit "<app/>" ++ lf
  | TeiApp rs => tab ++ lit "<app>" ++ lf ++ flat_map (fun r => tab ++ tab ++ tei_rdg r ++ lf) rs
                 ++ tab ++ lit "</app>" ++ lf
  end.
(** core_functions.py:183 toprettyxml. *)
Definition tei_pretty (items : list tei_item) : str :=
  tei_head ++ lf ++ tei_open ++
  match items with
  | [] => lit "/>" ++ lf
  | [TeiText s] => lit ">" ++ minidom_escape s ++ lit "</cx:apparatus>" ++ lf
  | _ => lit ">" ++ lf ++ flat_map tei_item_pretty items ++ lit "</cx:apparatus>" ++ lf
  end.

(** core_functions.py:140-186. *)
Definition export_tei (cc : cclass) (indent : bool) (t : table) : res str :=
  items <- tei_items cc t ;; Ok (if indent then tei_pretty items else tei_xml items).
