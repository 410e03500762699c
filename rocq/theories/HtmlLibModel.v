(** Model of the table, row, cell and list classes of collatex/HTML.py.  Objects are records; a
    rendering gives the text and the objects afterwards, since [__str__] writes into them.  Simplified:
    texts and attribute values are strings (Python calls str() on them), an attribute that is None
    and one that is the empty string are kept apart, and two places never hold one and the same object. *)
From Verif Require Import Py TokenModel ExportModel.
Open Scope list_scope.
Open Scope nat_scope.

(** HTML.py:133-135: the dictionary of attributes. *)
Definition attribs := list (str * str).

(** HTML.py:120-135  TableCell. *)
Record hcell := { hc_text : str; hc_bgcolor : option str; hc_header : bool; hc_width : option str; hc_align : option str;
                  hc_char : option str; hc_charoff : option str; hc_valign : option str; hc_style : option str; hc_attribs : attribs }.
(** HTML.py:120-135, called with a text and header only (HTML.py:202). *)
Definition new_cell (text : str) (header : bool) : hcell :=
  {| hc_text := text; hc_bgcolor := None; hc_header := header; hc_width := None; hc_align := None;
     hc_char := None; hc_charoff := None; hc_valign := None; hc_style := None; hc_attribs := [] |}.

(** [if self.x: self.attribs['x'] = self.x] HTML.py:140-146, 195, 270-274. *)
Definition put (name : str) (v : option str) (d : attribs) : attribs :=
  match v with Some (x :: s) => dset str_eqb name (x :: s) d | _ => d end.
(** [for attr in self.attribs: attribs_str += ' %s="%s"' % ...] HTML.py:147-148, 196-197, 275-276. *)
Definition attribs_text (d : attribs) : str := concat (map (fun '(k, v) => lit " " ++ k ++ lit "=" ++ dq ++ v ++ dq) d).

(** HTML.py:137-157  TableCell.__str__ *)
Definition cell_attribs (c : hcell) : attribs :=
  put (lit "style") (hc_style c) (put (lit "valign") (hc_valign c) (put (lit "charoff") (hc_charoff c) (put (lit "char") (hc_char c)
    (put (lit "align") (hc_align c) (put (lit "width") (hc_width c) (put (lit "bgcolor") (hc_bgcolor c) (hc_attribs c))))))).
(** HTML.py:137-157 TableCell.__str__, with the cell afterwards. *)
Definition cell_str (c : hcell) : str * hcell :=
  let d := cell_attribs c in
  let name := if hc_header c then lit "TH" else lit "TD" in
  let text := match hc_text c with [] => lit "&nbsp;" | s => s end in
  (lit "  <" ++ name ++ attribs_text d ++ lit ">" ++ text ++ lit "</" ++ name ++ lit ">" ++ lf,
   {| hc_text := hc_text c; hc_bgcolor := hc_bgcolor c; hc_header := hc_header c; hc_width := hc_width c; hc_align := hc_align c;
      hc_char := hc_char c; hc_charoff := hc_charoff c; hc_valign := hc_valign c; hc_style := hc_style c; hc_attribs := d |}).

(** A cell of a row: a string or a TableCell. HTML.py:199-202. *)
Inductive hitem := HText (s : str) | HCell (c : hcell).
(** The attributes of the columns ([[]]: None or empty). HTML.py:183-187 and 261-265. *)
Record hcols := { k_align : list (option str); k_valign : list (option str); k_char : list (option str); k_charoff : list (option str); k_styles : list (option str) }.
(** HTML.py:177-178: the defaults. *)
Definition no_cols : hcols := {| k_align := []; k_valign := []; k_char := []; k_charoff := []; k_styles := [] |}.
(** HTML.py:176-190  TableRow ([None]: no cells given). *)
Record hrow := { hr_cells : option (list hitem); hr_bgcolor : option str; hr_header : bool; hr_attribs : attribs; hr_cols : hcols }.
(** HTML.py:176-190 with cells and header only (HTML.py:310, 316). *)
Definition new_row (cells : list hitem) (header : bool) : hrow :=
  {| hr_cells := Some cells; hr_bgcolor := None; hr_header := header; hr_attribs := []; hr_cols := no_cols |}.

(** [self.cells.index(cell)] for the cell at place [k]: strings are compared, cells are objects of their own. HTML.py:200. *)
Definition same_text (s : str) (i : hitem) : bool := match i with HText s' => str_eqb s s' | HCell _ => false end.
(** HTML.py:200: the place of the first equal text. *)
Fixpoint first_place (s : str) (l : list hitem) : nat :=
  match l with [] => 0 | i :: l' => if same_text s i then 0 else S (first_place s l') end.
(** HTML.py:200 self.cells.index(cell). *)
Definition index_of (cells : list hitem) (k : nat) (i : hitem) : nat := match i with HText s => first_place s cells | HCell _ => k end.

(** [if self.col_x and cell.x is None: cell.x = self.col_x[col]] HTML.py:204-214. *)
Definition from_column (column : list (option str)) (x : option str) (col : nat) : res (option str) :=
  match column, x with
  | _ :: _, None => match nth_error column col with Some v => Ok v | None => Raise IndexError end
  | _, _ => Ok x
  end.
(** HTML.py:199-215  the body of the loop. *)
Definition apply_columns (k : hcols) (col : nat) (c : hcell) : res hcell :=
  a <- from_column (k_align k) (hc_align c) col ;;
  ch <- from_column (k_char k) (hc_char c) col ;;
  co <- from_column (k_charoff k) (hc_charoff c) col ;;
  v <- from_column (k_valign k) (hc_valign c) col ;;
  s <- from_column (k_styles k) (hc_style c) col ;;
  Ok {| hc_text := hc_text c; hc_bgcolor := hc_bgcolor c; hc_header := hc_header c; hc_width := hc_width c; hc_align := a;
        hc_char := ch; hc_charoff := co; hc_valign := v; hc_style := s; hc_attribs := hc_attribs c |}.
(** HTML.py:199-215: one cell of a row. *)
Definition item_str (cells : list hitem) (header : bool) (k : hcols) (n : nat) (i : hitem) : res (str * hitem) :=
  let col := index_of cells n i in
  match i with
  | HText s => c <- apply_columns k col (new_cell s header) ;; Ok (fst (cell_str c), i)
  | HCell c => c' <- apply_columns k col c ;; Ok (fst (cell_str c'), HCell (snd (cell_str c')))
  end.
(** HTML.py:199-215: the loop. *)
Fixpoint items_str (cells : list hitem) (header : bool) (k : hcols) (n : nat) (l : list hitem) : res (str * list hitem) :=
  match l with
  | [] => Ok ([], [])
  | i :: l' => '(s, i') <- item_str cells header k n i ;; '(s', r) <- items_str cells header k (S n) l' ;; Ok (s ++ s', i' :: r)
  end.
(** HTML.py:192-217  TableRow.__str__ *)
Definition row_str (r : hrow) : res (str * hrow) :=
  let d := put (lit "bgcolor") (hr_bgcolor r) (hr_attribs r) in
  match hr_cells r with
  | None => Raise TypeError
  | Some cells =>
    '(s, cells') <- items_str cells (hr_header r) (hr_cols r) 0 cells ;;
    Ok (lit " <TR" ++ attribs_text d ++ lit ">" ++ lf ++ s ++ lit " </TR>" ++ lf,
        {| hr_cells := Some cells'; hr_bgcolor := hr_bgcolor r; hr_header := hr_header r; hr_attribs := d; hr_cols := hr_cols r |})
  end.

(** A row of a table: a list or a TableRow. HTML.py:314-316. *)
Inductive hline := HList (l : list hitem) | HRow (r : hrow).
(** HTML.py:243-265  Table; [ht_style] is already the default if none was given. *)
Record htable := { ht_rows : list hline; ht_border : option str; ht_style : option str; ht_width : option str; ht_cellspacing : option str;
                   ht_cellpadding : option str; ht_attribs : attribs; ht_header : option hline; ht_colwidth : list str; ht_cols : hcols }.
(** HTML.py:251 TABLE_STYLE_THINBORDER. *)
Definition thin_border : str := lit "border: 1px solid #000000; border-collapse: collapse;".
(** HTML.py:243-265 with rows and header_row only (display_module.py:40). *)
Definition new_table (rows : list hline) (header : option hline) : htable :=
  {| ht_rows := rows; ht_border := Some (lit "1"); ht_style := Some thin_border; ht_width := None; ht_cellspacing := None;
     ht_cellpadding := Some (lit "4"); ht_attribs := []; ht_header := header; ht_colwidth := []; ht_cols := no_cols |}.

(** HTML.py:319-328  the columns of the table for a row that has none. *)
Definition inherit (row table : list (option str)) : list (option str) := match row with [] => table | _ => row end.
(** HTML.py:319-328: the columns that the row does not have. *)
Definition inherit_cols (row table : hcols) : hcols :=
  {| k_align := inherit (k_align row) (k_align table); k_valign := inherit (k_valign row) (k_valign table); k_char := inherit (k_char row) (k_char table);
     k_charoff := inherit (k_charoff row) (k_charoff table); k_styles := inherit (k_styles row) (k_styles table) |}.
(** HTML.py:319-328: the row with these columns. *)
Definition with_cols (r : hrow) (k : hcols) : hrow :=
  {| hr_cells := hr_cells r; hr_bgcolor := hr_bgcolor r; hr_header := hr_header r; hr_attribs := hr_attribs r; hr_cols := inherit_cols (hr_cols r) k |}.
(** A list keeps its items; only the TableCell objects in it change. HTML.py:315-316 and 329. *)
Definition line_str (header : bool) (k : hcols) (l : hline) : res (str * hline) :=
  match l with
  | HList cells => '(s, r) <- row_str (with_cols (new_row cells header) k) ;;
                   Ok (s, HList (match hr_cells r with Some cells' => cells' | None => cells end))
  | HRow r => '(s, r') <- row_str (with_cols r k) ;; Ok (s, HRow r')
  end.
(** HTML.py:314-329: the loop over the rows. *)
Fixpoint lines_str (k : hcols) (l : list hline) : res (str * list hline) :=
  match l with
  | [] => Ok ([], [])
  | x :: l' => '(s, x') <- line_str false k x ;; '(s', r) <- lines_str k l' ;; Ok (s ++ s', x' :: r)
  end.
(** HTML.py:267-331  Table.__str__; the header row does not get the columns of the table. *)
Definition header_str (h : option hline) : res (str * option hline) :=
  match h with
  | None | Some (HList []) => Ok ([], h)
  | Some l => '(s, l') <- line_str true no_cols l ;; Ok (s, Some l')
  end.
(** HTML.py:267-331, with the table afterwards. *)
Definition table_str (t : htable) : res (str * htable) :=
  let d := put (lit "cellpadding") (ht_cellpadding t) (put (lit "cellspacing") (ht_cellspacing t) (put (lit "width") (ht_width t)
             (put (lit "style") (ht_style t) (put (lit "border") (ht_border t) (ht_attribs t))))) in
  let widths := concat (map (fun w => lit "  <COL width=" ++ dq ++ w ++ dq ++ lit ">" ++ lf) (ht_colwidth t)) in
  '(h, header) <- header_str (ht_header t) ;;
  '(s, rows) <- lines_str (ht_cols t) (ht_rows t) ;;
  Ok (lit "<TABLE" ++ attribs_text d ++ lit ">" ++ lf ++ widths ++ h ++ s ++ lit "</TABLE>",
      {| ht_rows := rows; ht_border := ht_border t; ht_style := ht_style t; ht_width := ht_width t; ht_cellspacing := ht_cellspacing t;
         ht_cellpadding := ht_cellpadding t; ht_attribs := d; ht_header := header; ht_colwidth := ht_colwidth t; ht_cols := ht_cols t |}).

(** HTML.py:349-373  List. *)
Record hlist := { hl_lines : list str; hl_ordered : bool; hl_start : option str; hl_attribs : attribs }.
(** HTML.py:362-374 List.__str__, with the list afterwards. *)
Definition list_str (l : hlist) : str * hlist :=
  let d := put (lit "start") (hl_start l) (hl_attribs l) in
  let tag := if hl_ordered l then lit "OL" else lit "UL" in
  (lit "<" ++ tag ++ attribs_text d ++ lit ">" ++ lf ++ concat (map (fun x => lit " <LI>" ++ x ++ lf) (hl_lines l)) ++ lit "</" ++ tag ++ lit ">" ++ lf,
   {| hl_lines := hl_lines l; hl_ordered := hl_ordered l; hl_start := hl_start l; hl_attribs := d |}).
(** HTML.py:410-414  Link, link. *)
Definition link (text url : str) : str := lit "<a href=" ++ dq ++ url ++ dq ++ lit ">" ++ text ++ lit "</a>".
