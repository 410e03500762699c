(** Specification vocabulary: a table cut at a common passage (C111). *)
From Verif Require Import Py TokenModel IndexModel GraphModel TableModel.
Open Scope list_scope.
Open Scope nat_scope.

(** The readings in the cells of the rows. *)
Definition rows_read (t : table) : list (list (option (list str))) :=
  map (fun r => map (option_map (map tk_str)) (r_cells r)) (t_rows t).
Definition variants (t : table) : list bool := map c_variant (t_columns t).

(** The positions of the pairs of the second part, when [i] and [j] positions stand before them. *)
Definition further (i j : nat) (p : nat * nat) : nat * nat := (i + fst p, j + snd p).

(** The passage [u] is long (C110), or stands at the beginning of both texts, or at the end of both. *)
Definition long_or_outer (X1 X2 u Y1 Y2 : list str) : Prop :=
  Nat.max (length X1) (length X2) + Nat.max (length Y1) (length Y2) + Nat.min (length X1 + length Y1) (length X2 + length Y2) < 2 * length u \/
  (X1 = [] /\ X2 = []) \/ (Y1 = [] /\ Y2 = []).
