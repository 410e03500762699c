(** The words all witnesses share, as fences in a table (C109). *)
From Verif Require Import Py TokenModel IndexModel TableModel.
Open Scope list_scope.
Open Scope nat_scope.

(** The column number [x] is not variant: all witnesses have the same reading there. *)
Definition shared (t : table) (x : nat) : Prop := exists col, nth_error (t_columns t) x = Some col /\ c_variant col = false.

(** The columns [y] and [z] are on the same side of every shared column. *)
Definition same_sides (t : table) (y z : nat) : Prop :=
  forall x, shared t x -> (y < x <-> z < x) /\ (x < y <-> x < z).

(** What the row number [i] shows in the column number [y]. *)
Definition shown (t : table) (i y : nat) (ts : list token) : Prop :=
  exists ro, nth_error (t_rows t) i = Some ro /\ nth_error (r_cells ro) y = Some (Some ts).

(** The columns beside the column [y], if there are any, are shared. *)
Definition fenced (t : table) (y : nat) : Prop :=
  y < length (t_columns t) /\ (y = 0 \/ shared t (y - 1)) /\ (S y = length (t_columns t) \/ shared t (S y)).
