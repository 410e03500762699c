(** Rows of a table with near matching: every token has a column, and a column shows one of the tokens that have it. *)
From Verif Require Import Py TokenModel SuffixModel IndexModel GraphModel TableModel TableSpec.

(** [tks] are the tokens of the witness as collatex has marked them (each with a position of its own), [cols] says which
    column each of them has.  A cell is empty if no token has its column; otherwise it holds exactly one token, one of those that
    have the column. *)
Record shown_row (sg : str) (toks : list tok0) (cells : list cell) (tks : list token) (cols : list nat) : Prop := {
  sr_tokens : Forall2 (came_from sg) toks tks;
  sr_marks : NoDup (map tk_pos tks);
  sr_columns : length cols = length tks;
  sr_inside : forall k, In k cols -> k < length cells;
  sr_cells : forall k ce, nth_error cells k = Some ce ->
    match ce with
    | None => ~ In k cols
    | Some ts => exists i tk, nth_error tks i = Some tk /\ nth_error cols i = Some k /\ ts = [tk]
    end
}.
