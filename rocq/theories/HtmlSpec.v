(** Specification of the html2 output (C54) and of the printed table (C55). *)
From Verif Require Import Py TokenModel TokenSpec SuffixModel IndexModel GraphModel TableModel CollateModel ExportSpec HtmlModel.
Open Scope list_scope.
Open Scope nat_scope.

(** Wrapping a text adds nothing but blanks and line feeds. *)
Definition wraps (fill : str -> str) : Prop := forall s c, In c (fill s) -> In c s \/ c = 32%N \/ c = 10%N.

(** The events of an html table (the reader of ExportSpec): a heading for every witness, one row
    of coloured cells for every column. *)
Definition line (cells : list event) : list event :=
  chars (lit " ") ++ element (lit "TR") [] (chars [10%N] ++ cells ++ chars (lit " ")) ++ chars [10%N].
Definition heading (sigil : str) : list event := chars (lit "  ") ++ element (lit "TH") [] (chars sigil) ++ chars [10%N].
Definition coloured (x : str * str) : list event :=
  chars (lit "  ") ++ element (lit "TD") [(lit "bgcolor", fst x)] (chars (match snd x with [] => [160%N] | s => s end)) ++ chars [10%N].
Definition html_document (sigla : list str) (rows : list (list (str * str))) : list event :=
  element (lit "TABLE") [(lit "border", lit "1"); (lit "style", lit "border: 1px solid #000000; border-collapse: collapse;"); (lit "cellpadding", lit "4")]
    (chars [10%N] ++ line (flat_map heading sigla) ++ flat_map (fun r => line (flat_map coloured r)) rows).

(** What is shown for a witness in a column: its text, or a hyphen. *)
Inductive shows_text (col : column) (sg : str) : str -> Prop :=
| shows_tokens : forall ts x, In (sg, ts) (c_cells col) -> text_of ts x -> shows_text col sg x
| shows_hyphen : ~ In sg (map fst (c_cells col)) -> shows_text col sg (lit "-").

(** Characters with a meaning in html. *)
Definition no_markup (s : str) : Prop := ~ In 38%N s /\ ~ In 60%N s /\ ~ In 62%N s.
Definition without_markup (c : collation) : Prop :=
  forall w, In w c -> no_markup (w_sigil w) /\
    forall t s, In t (w_toks w) -> dget str_eqb (lit "t") (t0_data t) = Some (JStr s) -> no_markup s.

(** ** The printed table *)
Definition prints (x : cell) (s : str) : Prop :=
  match x with Some ts => text_of ts s | None => s = lit "-" end.
Definition count_begin (name : str) (ev : list event) : nat :=
  length (filter (fun e => match e with Begin n _ => str_eqb n name | _ => false end) ev).
