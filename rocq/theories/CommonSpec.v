(** Specification vocabulary for words that all witnesses have in common. *)
From Verif Require Import Py TokenModel IndexModel GraphModel TableModel.
Open Scope list_scope.
Open Scope nat_scope.

(** The word [s] does not stand twice in a row in [l]. *)
Definition not_doubled (s : str) (l : list str) : Prop := forall i, nth_error l i = Some s -> nth_error l (S i) <> Some s.

(** The column number [k] of the table is not variant, and every witness has the word [s] in it. *)
Definition agreed_column (t : table) (k : nat) (s : str) : Prop :=
  exists col, nth_error (t_columns t) k = Some col /\ c_variant col = false /\
    forall r, In r (t_rows t) -> exists tok, nth_error (r_cells r) k = Some (Some [tok]) /\ tk_str tok = s.

(** The word [s] stands at most once in [l]. *)
Definition unrepeated (s : str) (l : list str) : Prop := forall i j, nth_error l i = Some s -> nth_error l j = Some s -> i = j.

(** The column number [k] of the table is not variant, and the words every witness has in it satisfy [P]. *)
Definition agreed_segment (t : table) (k : nat) (P : list str -> Prop) : Prop :=
  exists col, nth_error (t_columns t) k = Some col /\ c_variant col = false /\
    forall r, In r (t_rows t) -> exists ts, nth_error (r_cells r) k = Some (Some ts) /\ P (map tk_str ts).
