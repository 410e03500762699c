(** What an argument of a RangeSet operation stands for. *)
From Verif Require Import Py TokenModel RangeSetModel RangeArgModel.
Open Scope list_scope.
Open Scope Z_scope.

(** The integer an argument stands for: itself, or the number a text spells as Python's int() reads it. *)
Definition stands_for (cc : cclass) (x : rs_arg) (z : Z) : Prop :=
  x = AnInt z \/ exists s, x = AText s /\ py_int cc s = Some z.
(** A text that is no number. *)
Definition no_number (cc : cclass) (x : rs_arg) : Prop := exists s, x = AText s /\ py_int cc s = None.
(** Neither an integer nor a text. *)
Definition no_element (x : rs_arg) : Prop := x = AnOther \/ exists r, x = ASet r.
Definition no_set (x : rs_arg) : Prop := forall r, x <> ASet r.
