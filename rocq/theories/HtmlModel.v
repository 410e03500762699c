(** Model of the html2 output (collatex/display_module.py:27-41, collatex/HTML.py) and of the
    printed table (collatex/core_classes.py:81-82, 118-155).  textwrap.fill is a parameter;
    PrettyTable is not modelled: a printed table is the data given to it. *)
From Verif Require Import Py TokenModel SuffixModel IndexModel GraphModel TableModel ExportModel CollateModel.
From Coq Require Import QArith.
Open Scope list_scope.
Open Scope nat_scope.

(** HTML.py:137-157  TableCell.__str__; only bgcolor is ever set here. *)
Definition html_cell (header : bool) (bgcolor : option str) (text : str) : str :=
  let name := if header then lit "TH" else lit "TD" in
  let attribs := match bgcolor with Some b => lit " bgcolor=" ++ dq ++ b ++ dq | None => [] end in
  lit "  <" ++ name ++ attribs ++ lit ">" ++ match text with [] => lit "&nbsp;" | _ => text end ++
  lit "</" ++ name ++ lit ">" ++ lf.

(** HTML.py:192-217  TableRow.__str__ without attributes, alignment and styles. *)
Definition html_row (cells : list str) : str := lit " <TR>" ++ lf ++ concat cells ++ lit " </TR>" ++ lf.

(** HTML.py:267-331  Table.__str__ with the default border, style and padding; an empty header
    row is not written. *)
Definition html_table (header : list str) (rows : list (list str)) : str :=
  lit "<TABLE border=" ++ dq ++ lit "1" ++ dq ++ lit " style=" ++ dq ++ lit "border: 1px solid #000000; border-collapse: collapse;" ++ dq ++
  lit " cellpadding=" ++ dq ++ lit "4" ++ dq ++ lit ">" ++ lf ++
  match header with [] => [] | _ => html_row (map (html_cell true None) header) end ++
  concat (map html_row rows) ++ lit "</TABLE>".

Section Html.
  (** textwrap.fill(text, 20): external. *)
  Variable fill : str -> str.

  (** display_module.py:34-35: the text of a cell, "-" if the witness has no tokens in it. *)
  Definition shown_text (x : cell) : res str :=
    match x with None | Some [] => Ok (lit "-") | Some ts => cell_text ts end.

  (** display_module.py:27-41  visualize_table_vertically_with_colors, up to display(HTML(...)). *)
  Definition html2_cell (col : column) (sigil : str) : res str :=
    s <- shown_text (dget str_eqb sigil (c_cells col)) ;;
    Ok (html_cell false (Some (if c_variant col then lit "FF0000" else lit "00FFFF")) (fill s)).
  (** display_module.py:27-41. *)
  Definition html2 (sigla : list str) (t : table) : res str :=
    rows <- mapM (fun col => mapM (html2_cell col) sigla) (t_columns t) ;;
    Ok (html_table sigla rows).

  (** core_functions.py:77-78: collate with output="html2". *)
  Definition collate_html2 (cc : cclass) (topo : graph -> res (list vid)) (ratio : str -> str -> Q) (c : collation) (o : options) : res str :=
    x <- collate cc topo ratio c o ;;
    match x with OHtml2 t => html2 (map w_sigil c) t | _ => Raise UnknownOutput end.

  (** The data given to PrettyTable: rows, or columns with their headings. core_classes.py:132-155. *)
  Inductive printed := PRows (rows : list (list str)) | PColumns (columns : list (str * list str)).

  (** core_classes.py:131-143  visualizeTableHorizontal *)
  Definition print_row (cc : cclass) (ro : row) : res (list str) :=
    l <- mapM shown_text (r_cells ro) ;; Ok (r_header ro :: map (rstrip cc) l).
  (** core_classes.py:146-155  visualizeTableVertically *)
  Definition print_column (ro : row) : res (str * list str) :=
    l <- mapM shown_text (r_cells ro) ;; Ok (r_header ro, map fill l).
  (** core_classes.py:119-128  create_table_visualization; AlignmentTable.__str__ *)
  Definition print_table (cc : cclass) (layout : str) (t : table) : res printed :=
    if str_eqb layout (lit "vertical") then l <- mapM print_column (t_rows t) ;; Ok (PColumns l)
    else if str_eqb layout (lit "horizontal") then l <- mapM (print_row cc) (t_rows t) ;; Ok (PRows l)
    else Raise UnknownLayout.
End Html.
