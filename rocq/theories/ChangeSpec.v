(** Specification vocabulary for small differences between two witnesses (C89). *)
From Verif Require Import Py.
Open Scope list_scope.
Open Scope nat_scope.

(** [k] words of the first text are replaced, left out or put in to make the second. *)
Inductive edits : list str -> list str -> nat -> Prop :=
| ed_end : edits [] [] 0
| ed_same : forall s a b k, edits a b k -> edits (s :: a) (s :: b) k
| ed_replace : forall s s' a b k, edits a b k -> edits (s :: a) (s' :: b) (S k)
| ed_omit : forall s a b k, edits a b k -> edits (s :: a) b (S k)
| ed_add : forall s a b k, edits a b k -> edits a (s :: b) (S k).
