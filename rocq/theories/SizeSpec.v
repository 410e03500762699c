(** Specification vocabulary for the size of an alignment table (C85 to C87). *)
From Verif Require Import Py TokenModel SuffixModel IndexModel GraphModel AlignModel TableModel CollateModel.
Open Scope list_scope.
Open Scope nat_scope.

(** No word of a witness is a word of another witness. *)
Definition nothing_in_common (c : collation) : Prop :=
  forall w w' t t', In w c -> In w' c -> w_sigil w <> w_sigil w' ->
    In t (w_toks w) -> In t' (w_toks w') -> t0_str t <> t0_str t'.

(** The lengths of the witnesses; the longest and all together. *)
Definition lengths (c : collation) : list nat := map (fun w => length (w_toks w)) c.
Definition longest_witness (c : collation) : nat := list_max (lengths c).
Definition all_words (c : collation) : nat := list_sum (lengths c).

(** The words in the cells of a row. *)
Definition cell_words (c : cell) : option (list str) := option_map (map tk_str) c.
Definition row_words (r : row) : list (option (list str)) := map cell_words (r_cells r).
(** The row of the witness [sg]. *)
Definition row_of (t : table) (sg : str) (r : row) : Prop := In r (t_rows t) /\ r_header r = sg.

(** The words of the row [r] stand in no other column of the table: where a cell of any row
    has the words of a cell of [r], it is in the same column. *)
Definition words_stay (t : table) (r : row) : Prop :=
  forall i j ro ts ts', In ro (t_rows t) -> nth_error (r_cells r) i = Some (Some ts) ->
    nth_error (r_cells ro) j = Some (Some ts') -> map tk_str ts = map tk_str ts' -> i = j.
