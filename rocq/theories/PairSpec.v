(** Specification vocabulary for the collation of two witnesses. *)
From Verif Require Import Py TokenModel IndexModel GraphModel TableModel TableSpec.
From Coq Require Import Sorted.
Open Scope list_scope.
Open Scope nat_scope.

(** A way of pairing the positions of two texts: the pairs go upwards in both texts, and the
    two texts have the same reading at the two positions of a pair. *)
Definition agreeing (a b : list str) (P : list (nat * nat)) : Prop :=
  StronglySorted (fun p q => fst p < fst q /\ snd p < snd q) P /\
  forall i j, In (i, j) P -> exists s, nth_error a i = Some s /\ nth_error b j = Some s.

(** The columns for the positions i, ..., x-1 of the first text and j, ..., y-1 of the
    second, none of which is paired: they stand side by side from the left, and the shorter
    stretch is filled up with empty cells. *)
Definition gap (i x j y : nat) : list (option nat * option nat) :=
  map (fun k => (if i + k <? x then Some (i + k) else None, if j + k <? y then Some (j + k) else None))
      (seq 0 (Nat.max (x - i) (y - j))).

(** The columns from the positions i and j to the ends n and m of the texts: a column for
    each pair, and before, between and after the pairs the columns of the gaps. *)
Fixpoint layout (i j n m : nat) (P : list (nat * nat)) : list (option nat * option nat) :=
  match P with
  | [] => gap i n j m
  | (x, y) :: P' => gap i x j y ++ (Some x, Some y) :: layout (S x) (S y) n m P'
  end.

(** The columns of pairs count 1, the others -1. *)
Definition balance (n m : nat) (P : list (nat * nat)) : Z :=
  (Z.of_nat (length P) - (Z.of_nat (length (layout 0 0 n m P)) - Z.of_nat (length P)))%Z.

(** The cell shows the token number i of the witness; no number means an empty cell. *)
Definition shows (w : witness) (i : option nat) (c : cell) : Prop :=
  match i, c with
  | None, None => True
  | Some i, Some ts => exists t0 t, nth_error (w_toks w) i = Some t0 /\ ts = [t] /\ came_from (w_sigil w) t0 t
  | _, _ => False
  end.

Definition readings (w : witness) : list str := map t0_str (w_toks w).

(** No two neighbouring readings are equal. *)
Definition no_doublets (a : list str) : Prop := forall i s, nth_error a i = Some s -> nth_error a (S i) <> Some s.

(** Columns on which the witnesses agree, less the others. *)
Definition table_score (t : table) : Z :=
  (Z.of_nat (length (filter (fun col => negb (c_variant col)) (t_columns t))) - Z.of_nat (length (filter c_variant (t_columns t))))%Z.

(** [b] is [a] with some readings left out. *)
Inductive subsequence : list str -> list str -> Prop :=
| sub_nil : forall a, subsequence [] a
| sub_take : forall s b a, subsequence b a -> subsequence (s :: b) (s :: a)
| sub_skip : forall s b a, subsequence b a -> subsequence b (s :: a).

(** The row [long] has no empty cell, and the row [short] has the same readings in the
    columns that are not variant and empty cells in the others. *)
Definition only_omissions (t : table) (long short : row) : Prop :=
  forall k col, nth_error (t_columns t) k = Some col ->
    exists ts, nth_error (r_cells long) k = Some (Some ts) /\
      if c_variant col then nth_error (r_cells short) k = Some None
      else exists ts', nth_error (r_cells short) k = Some (Some ts') /\ map tk_str ts' = map tk_str ts.
