(** Specification vocabulary for RangeSet (C30, C31, C48). *)
From Verif Require Import Py TokenModel RangeSetModel.
From Coq Require Import Sorting.Sorted.
Open Scope list_scope.
Open Scope Z_scope.

(** A RangeSet holds a set: its elements in ascending order, none twice. *)
Definition ascending (l : list Z) : Prop := StronglySorted Z.lt l.

(** The integers a slice stands for. *)
Definition denotes (s : pslice) (x : Z) : Prop :=
  exists n, 0 <= n /\ x = sl_start s + n * sl_step s /\ x < sl_stop s.
(** [l] lists the integers of a slice in ascending order. *)
Definition listing (s : pslice) (l : list Z) : Prop := ascending l /\ forall x, In x l <-> denotes s x.

(** [ss] divides the elements into consecutive pieces, one for every slice, none empty. *)
Definition divides (ss : list pslice) (elems : list Z) : Prop :=
  exists parts, Forall2 listing ss parts /\ concat parts = elems /\ Forall (fun p => p <> []) parts.

(** Between two consecutive contiguous ranges at least one integer is missing. *)
Definition apart (s s' : pslice) : Prop := sl_stop s < sl_start s'.

(** A run of consecutive integers: nothing is missing between two of them. *)
Definition consecutive (l : list Z) : Prop := l <> [] /\ forall x y z, In x l -> In z l -> x <= y <= z -> In y l.
(** All of [l] lies before all of [l'], and at least one integer is missing between them. *)
Definition gap (l l' : list Z) : Prop := forall x y, In x l -> In y l' -> x + 1 < y.

(** White space does not include digits. *)
Definition digits_not_space (cc : cclass) : Prop := forall c, (48 <= c <= 57)%N -> iss cc c = false.

(** [l] is the set of the integers that satisfy [P]. *)
Definition is_set_of (r : rangeset) (P : Z -> Prop) : Prop := ascending (rs_elems r) /\ forall x, In x (rs_elems r) <-> P x.
Definition has (r : rangeset) (x : Z) : Prop := In x (rs_elems r).
