(** ClusterShell/RangeSet.py: the element operations and the operators with arguments of any kind. *)
From Verif Require Import Py TokenModel RangeSetModel.
Open Scope list_scope.
Open Scope Z_scope.

(** An argument: an integer, a text, a set, or something that is none of these, has no integer value and defines no
    reflected operators (None, a list, a tuple).  Floats are not modelled. RangeSet.py:600, 631, 720, 730, 738. *)
Inductive rs_arg := AnInt (z : Z) | AText (s : str) | ASet (r : rangeset) | AnOther.

Section Text.
  Variable cc : cclass.
  (** Python's [int(x)]: ValueError for a text that is no number, TypeError for sets and other things. RangeSet.py:600, 720, 730, 738. *)
  Definition arg_int (x : rs_arg) : res Z :=
    match x with
    | AnInt z => Ok z
    | AText s => match py_int cc s with Some z => Ok z | None => Raise ValueError end
    | ASet _ | AnOther => Raise TypeError
    end.
  (** RangeSet.py:716-722  add. *)
  Definition rs_add_arg (a : rangeset) (x : rs_arg) (pad : Z) : res rangeset := z <- arg_int x ;; Ok (rs_add a z pad).
  (** RangeSet.py:724-730  remove. *)
  Definition rs_remove_arg (a : rangeset) (x : rs_arg) : res rangeset := z <- arg_int x ;; rs_remove a z.
  (** RangeSet.py:732-741  discard: only ValueError is caught. *)
  Definition rs_discard_arg (a : rangeset) (x : rs_arg) : res rangeset :=
    match arg_int x with
    | Ok z => Ok (rs_discard a z)
    | Raise ValueError => Ok a
    | Raise e => Raise e
    end.
  (** RangeSet.py:590-600  __contains__. *)
  Definition rs_contains_arg (a : rangeset) (x : rs_arg) : res bool :=
    match x with
    | ASet r => Ok (rs_contains_set a r)
    | _ => z <- arg_int x ;; Ok (rs_contains a z)
    end.
End Text.

(** RangeSet.py:626-631  _binary_sanity_check, and the tests at the head of lines 512-573, whose NotImplemented becomes a
    TypeError when the other side does not know the operator either. *)
Definition only_set (x : rs_arg) : res rangeset := match x with ASet r => Ok r | _ => Raise TypeError end.

(** RangeSet.py:512-586: [a | x], [a & x], [a ^ x], [a - x]. *)
Inductive rs_operator := OpOr | OpAnd | OpXor | OpSub.
(** RangeSet.py:512-588 the binary operators, with any argument. *)
Definition rs_operate (op : rs_operator) (a : rangeset) (x : rs_arg) : res rangeset :=
  b <- only_set x ;;
  match op with
  | OpOr => rs_union a b
  | OpAnd => Ok (rs_intersection a b)
  | OpXor => rs_symmetric_difference a b
  | OpSub => Ok (rs_difference a b)
  end.
(** RangeSet.py:639-676: [a |= x], [a &= x], [a ^= x], [a -= x]. *)
Definition rs_operate_in_place (op : rs_operator) (a : rangeset) (x : rs_arg) : res rangeset :=
  b <- only_set x ;;
  match op with
  | OpOr => Ok (rs_ior a b)
  | OpAnd => Ok (rs_intersection_update a b)
  | OpXor => Ok (rs_symmetric_difference_update a b)
  | OpSub => rs_difference_update a b false
  end.
(** RangeSet.py:604-624: [a <= x] (issubset), [a >= x] (issuperset), [a < x], [a > x]. *)
Inductive rs_comparison := CmpLe | CmpGe | CmpLt | CmpGt.
(** RangeSet.py:604-624 the comparisons, with any argument. *)
Definition rs_compare (c : rs_comparison) (a : rangeset) (x : rs_arg) : res bool :=
  b <- only_set x ;;
  Ok match c with
     | CmpLe => rs_issubset a b
     | CmpGe => rs_issuperset a b
     | CmpLt => rs_lt a b
     | CmpGt => Nat.ltb (length (rs_elems b)) (length (rs_elems a)) && rs_issuperset a b
     end.
(** RangeSet.py:482-493  [a == x]: with anything that is no RangeSet the other side is asked, and then the addresses are
    compared.  ([ASet] stands for a RangeSet here, not for a plain set.) *)
Definition rs_equals (a : rangeset) (x : rs_arg) : bool := match x with ASet b => rs_eq a b | _ => false end.
