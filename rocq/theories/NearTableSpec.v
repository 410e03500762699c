(** Specification vocabulary for the table of two witnesses with near matching (C105). *)
From Verif Require Import Py PairSpec.
From Coq Require Import QArith.
Open Scope list_scope.
Open Scope nat_scope.

(** What is compared for a reading: the reading itself, or "no label" for an empty one. *)
Definition as_compared (s : str) : str := match s with [] => lit "no label" | _ => s end.

(** How similar the reading number x of [a] is to the reading number y of [b]. *)
Definition likeness (ratio : str -> str -> Q) (a b : list str) (x y : nat) : Q :=
  ratio (as_compared (nth x a [])) (as_compared (nth y b [])).

(** The first of the numbers lo, ..., hi-1 with the greatest value. *)
Definition best (f : nat -> Q) (lo hi : nat) : nat :=
  fold_left (fun b c => if Qle_bool (f c) (f b) then b else c) (seq (S lo) (hi - S lo)) lo.

(** The columns of the readings 0, ..., p-1 of a stretch, beside a longer stretch that has one
    reading in each of the columns 0, ..., hi-1.  They are placed from the last one to the
    first: the reading number k stands beside the reading it is most like, from the column k on
    and before the column of the reading that follows. *)
Fixpoint standing (like : nat -> nat -> Q) (p hi : nat) : list nat :=
  match p with
  | 0 => []
  | S k => let c := best (like k) k hi in standing like k c ++ [c]
  end.

(** The number of the reading that stands in column c; the numbers begin with k. *)
Fixpoint in_column (c : nat) (cs : list nat) (k : nat) : option nat :=
  match cs with [] => None | d :: cs' => if c =? d then Some k else in_column c cs' (S k) end.

(** The columns for the positions i, ..., x-1 of the first text and j, ..., y-1 of the second,
    none of which is paired: the longer stretch fills the columns. *)
Definition near_gap (like12 like21 : nat -> nat -> Q) (i x j y : nat) : list (option nat * option nat) :=
  if x - i <=? y - j
  then map (fun c => (in_column c (standing (fun k d => like12 (i + k) (j + d)) (x - i) (y - j)) i, Some (j + c))) (seq 0 (y - j))
  else map (fun c => (Some (i + c), in_column c (standing (fun k d => like21 (j + k) (i + d)) (y - j) (x - i)) j)) (seq 0 (x - i)).

(** All columns from the positions i and j to the ends n and m of the texts. *)
Fixpoint near_layout (like12 like21 : nat -> nat -> Q) (i j n m : nat) (P : list (nat * nat)) : list (option nat * option nat) :=
  match P with
  | [] => near_gap like12 like21 i n j m
  | (x, y) :: P' => near_gap like12 like21 i x j y ++ (Some x, Some y) :: near_layout like12 like21 (S x) (S y) n m P'
  end.
