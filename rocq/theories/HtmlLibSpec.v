(** Specification of the html tables and lists of collatex/HTML.py (C92): what a reader of the text
    (ExportSpec) finds in it. *)
From Verif Require Import Py TokenModel ExportSpec HtmlSpec HtmlLibModel.
Open Scope list_scope.
Open Scope nat_scope.

(** An attribute is written if it is set and not empty. *)
Definition given (name : str) (v : option str) : attribs := match v with Some (x :: s) => [(name, x :: s)] | _ => [] end.
(** The attribute of a cell in column [k]: its own, or else that of the column. *)
Definition own_or_column (own : option str) (column : list (option str)) (k : nat) : option str :=
  match own with Some v => Some v | None => nth k column None end.

Definition cell_document (k : nat) (cols : hcols) (c : hcell) : list event :=
  chars (lit "  ") ++
  element (if hc_header c then lit "TH" else lit "TD")
    (hc_attribs c ++ given (lit "bgcolor") (hc_bgcolor c) ++ given (lit "width") (hc_width c) ++
     given (lit "align") (own_or_column (hc_align c) (k_align cols) k) ++ given (lit "char") (own_or_column (hc_char c) (k_char cols) k) ++
     given (lit "charoff") (own_or_column (hc_charoff c) (k_charoff cols) k) ++ given (lit "valign") (own_or_column (hc_valign c) (k_valign cols) k) ++
     given (lit "style") (own_or_column (hc_style c) (k_styles cols) k))
    (chars (match hc_text c with [] => [160%N] | s => s end)) ++
  chars [10%N].
(** A string stands for a cell without attributes. *)
Definition as_cell (header : bool) (i : hitem) : hcell := match i with HText s => new_cell s header | HCell c => c end.
Definition row_document (cols : hcols) (header : bool) (own : attribs) (cells : list hitem) : list event :=
  chars (lit " ") ++
  element (lit "TR") own
    (chars [10%N] ++ flat_map (fun '(k, i) => cell_document k cols (as_cell header i)) (combine (seq 0 (length cells)) cells) ++ chars (lit " ")) ++
  chars [10%N].
Definition line_document (cols : hcols) (header : bool) (l : hline) : list event :=
  match l with
  | HList cells => row_document cols header [] cells
  | HRow r => row_document (inherit_cols (hr_cols r) cols) (hr_header r) (hr_attribs r ++ given (lit "bgcolor") (hr_bgcolor r)) (match hr_cells r with Some l => l | None => [] end)
  end.
(** The columns' widths are written as elements that are not closed. *)
Definition col_document (w : str) : list event := chars (lit "  ") ++ [Begin (lit "COL") [(lit "width", w)]] ++ chars [10%N].
Definition table_document (t : htable) : list event :=
  element (lit "TABLE")
    (ht_attribs t ++ given (lit "border") (ht_border t) ++ given (lit "style") (ht_style t) ++ given (lit "width") (ht_width t) ++
     given (lit "cellspacing") (ht_cellspacing t) ++ given (lit "cellpadding") (ht_cellpadding t))
    (chars [10%N] ++ flat_map col_document (ht_colwidth t) ++
     match ht_header t with None | Some (HList []) => [] | Some l => line_document no_cols true l end ++
     flat_map (line_document (ht_cols t) false) (ht_rows t)).

(** Names and values of attributes that can be written as they are. *)
Definition plain_name (s : str) : Prop := forall c, In c s -> c <> 32%N /\ c <> 34%N /\ c <> 61%N /\ c <> 62%N.
Definition plain_value (s : str) : Prop := forall c, In c s -> c <> 34%N /\ c <> 38%N /\ c <> 62%N.
Definition plain_option (v : option str) : Prop := match v with Some s => plain_value s | None => True end.
(** Further attributes: each once, and none of those with a field of their own. *)
Definition further (names : list str) (d : attribs) : Prop :=
  NoDup (map fst d) /\ forall k v, In (k, v) d -> ~ In k names /\ plain_name k /\ plain_value v.
Definition cell_names : list str := [lit "bgcolor"; lit "width"; lit "align"; lit "char"; lit "charoff"; lit "valign"; lit "style"].
Definition table_names : list str := [lit "border"; lit "style"; lit "width"; lit "cellspacing"; lit "cellpadding"].
Definition good_item (i : hitem) : Prop :=
  match i with
  | HText s => no_markup s
  | HCell c => no_markup (hc_text c) /\ plain_option (hc_bgcolor c) /\ plain_option (hc_width c) /\ plain_option (hc_align c) /\ plain_option (hc_char c) /\
               plain_option (hc_charoff c) /\ plain_option (hc_valign c) /\ plain_option (hc_style c) /\ further cell_names (hc_attribs c)
  end.
Definition good_cols (k : hcols) : Prop :=
  Forall plain_option (k_align k) /\ Forall plain_option (k_valign k) /\ Forall plain_option (k_char k) /\ Forall plain_option (k_charoff k) /\ Forall plain_option (k_styles k).
(** The attributes of the columns, if there are any, cover [n] columns. *)
Definition covers (n : nat) (k : hcols) : Prop :=
  forall l, In l [k_align k; k_valign k; k_char k; k_charoff k; k_styles k] -> l = [] \/ n <= length l.
(** No two strings of a row are equal. *)
Fixpoint texts_of (l : list hitem) : list str := match l with [] => [] | HText s :: l' => s :: texts_of l' | HCell _ :: l' => texts_of l' end.
Definition distinct_texts (l : list hitem) : Prop := NoDup (texts_of l).
Definition good_row (k : hcols) (cells : list hitem) : Prop := Forall good_item cells /\ good_cols k /\ covers (length cells) k /\ (k = no_cols \/ distinct_texts cells).
Definition good_line (k : hcols) (l : hline) : Prop :=
  match l with
  | HList cells => good_row k cells
  | HRow r => exists cells, hr_cells r = Some cells /\ good_row (inherit_cols (hr_cols r) k) cells /\ plain_option (hr_bgcolor r) /\ further [lit "bgcolor"] (hr_attribs r)
  end.
Definition good_html (t : htable) : Prop :=
  Forall (good_line (ht_cols t)) (ht_rows t) /\ (forall l, ht_header t = Some l -> good_line no_cols l) /\ Forall plain_value (ht_colwidth t) /\
  plain_option (ht_border t) /\ plain_option (ht_style t) /\ plain_option (ht_width t) /\ plain_option (ht_cellspacing t) /\ plain_option (ht_cellpadding t) /\
  further table_names (ht_attribs t).

(** ** Lists: the entries are elements that are not closed. *)
Definition entry_document (x : str) : list event := chars (lit " ") ++ [Begin (lit "LI") []] ++ chars x ++ chars [10%N].
Definition list_document (l : hlist) : list event :=
  element (if hl_ordered l then lit "OL" else lit "UL") (hl_attribs l ++ given (lit "start") (hl_start l))
    (chars [10%N] ++ flat_map entry_document (hl_lines l)) ++ chars [10%N].
Definition good_list (l : hlist) : Prop := Forall no_markup (hl_lines l) /\ plain_option (hl_start l) /\ further [lit "start"] (hl_attribs l).
