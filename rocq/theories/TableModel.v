(** Model of AlignmentTable, Row and Column (collatex/core_classes.py:49-114). *)
From Verif Require Import Py TokenModel SuffixModel IndexModel GraphModel.
Open Scope list_scope.

(** core_classes.py:111-114: a cell is a list of tokens or None. *)
Definition cell := option (list token).
(** core_classes.py:64-70 Column. *)
Record column := { c_cells : list (str * list token); c_variant : bool }.
(** core_classes.py:49-55 Row. *)
Record row := { r_header : str; r_cells : list cell }.
(** core_classes.py:73-81 AlignmentTable: columns and rows. *)
Record table := { t_columns : list column; t_rows : list row }.

(** core_classes.py:90-102: the column of one rank, if it has a vertex other than
    start and end.  [nwit] is the number of witnesses. *)
Definition put_tokens (cells : list (str * list token)) (ts : list (str * list token))
  : list (str * list token) :=
  fold_left (fun d '(sg, t) => dset str_eqb sg t d) ts cells.

(** core_classes.py:93-102: one vertex. *)
Definition column_step (g : graph) (nwit nvert : nat) (col : option column) (v : vid)
  : res (option column) :=
  if (v =? v_start) || (v =? v_end) then Ok col
  else
    vx <- get_vertex g v ;;
    let cells := put_tokens (match col with Some c => c_cells c | None => [] end) (v_tokens vx) in
    Ok (Some {| c_cells := cells;
                c_variant := (1 <? nvert) || negb (length cells =? nwit) |}).

(** core_classes.py:90-102: one rank. *)
Definition rank_column (g : graph) (nwit : nat) (vs : list vid) : res (option column) :=
  foldM (column_step g nwit (length vs)) vs None.

(** core_classes.py:83-114  _construct_table.  [ranks] is always given here
    (core_functions.py:70). *)
Definition construct_columns (g : graph) (nwit : nat) (byrank : list (nat * list vid))
  : res (list column) :=
  foldM (fun cols '(_, vs) =>
           oc <- rank_column g nwit vs ;;
           Ok (match oc with Some c => cols ++ [c] | None => cols end))
        byrank [].

(** core_classes.py:105-114: one row. *)
Definition construct_row (cols : list column) (sigil : str) : row :=
  {| r_header := sigil; r_cells := map (fun c => dget str_eqb sigil (c_cells c)) cols |}.

(** core_classes.py:83-114. *)
Definition construct_table (sigla : list str) (g : graph) (r : ranking) : res table :=
  cols <- construct_columns g (length sigla) (by_rank r) ;;
  Ok {| t_columns := cols; t_rows := map (construct_row cols) sigla |}.
