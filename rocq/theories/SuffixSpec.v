(** Specification vocabulary for suffix arrays, independent of the model. *)
From Coq Require Import Permutation.
From Verif Require Import Py.

(** Lexicographic order on sequences, given an order on the elements. *)
Inductive lex {A} (lt : A -> A -> Prop) : list A -> list A -> Prop :=
| lex_nil : forall y b, lex lt [] (y :: b)
| lex_head : forall x y a b, lt x y -> lex lt (x :: a) (y :: b)
| lex_tail : forall x a b, lex lt a b -> lex lt (x :: a) (x :: b).

(** Order on strings (by code point) and on token sequences. *)
Definition str_lt : str -> str -> Prop := lex N.lt.
Definition toks_lt : list str -> list str -> Prop := lex str_lt.

(** [SA] lists every position of [toks] once, in the order of the suffixes. *)
Definition is_suffix_array (toks : list str) (SA : list nat) : Prop :=
  Permutation SA (seq 0 (length toks)) /\
  forall i j p q, i < j -> nth_error SA i = Some p -> nth_error SA j = Some q ->
    toks_lt (skipn p toks) (skipn q toks).

(** [k] is the length of the longest common prefix of [a] and [b]. *)
Definition is_lcp {A} (a b : list A) (k : nat) : Prop :=
  firstn k a = firstn k b /\ k <= length a /\ k <= length b /\
  (forall x y, nth_error a k = Some x -> nth_error b k = Some y -> x <> y).

(** [sub] occurs in [toks] at position [p]. *)
Definition occurs_at (sub toks : list str) (p : nat) : Prop :=
  p < length toks /\ firstn (length sub) (skipn p toks) = sub.
