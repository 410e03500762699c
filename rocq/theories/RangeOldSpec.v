(** Specification vocabulary for C102: the states of older RangeSets. *)
From Verif Require Import Py RangeSetModel RangeSpec RangeOldModel.
Open Scope list_scope.
Open Scope Z_scope.

(** The integers an entry stands for: the third number of a quadruple is included, the end of a
    slice and of a triple is not. *)
Definition stands_for (r : old_range) (x : Z) : Prop :=
  match r with
  | Quad a b s _ => exists n, 0 <= n /\ x = a + n * s /\ x <= b
  | Sliced a b s _ | Triple a b s _ => exists n, 0 <= n /\ x = a + n * s /\ x < b
  end.

Definition pad_of (r : old_range) : Z := match r with Quad _ _ _ p | Sliced _ _ _ p | Triple _ _ _ p => p end.

(** An entry with at least one and less than 10^9 places, a positive step and no negative padding. *)
Definition sound_range (r : old_range) : Prop :=
  match r with
  | Quad a b s p => a <= b /\ 0 < s /\ 0 <= p /\ b - a + 1 < 10 ^ 9
  | Sliced a b s p | Triple a b s p => a < b /\ 0 < s /\ 0 <= p /\ b - a < 10 ^ 9
  end.

Definition is_quad (r : old_range) : Prop := match r with Quad _ _ _ _ => True | _ => False end.
Definition is_sliced (r : old_range) : Prop := match r with Sliced _ _ _ _ => True | _ => False end.
Definition is_triple (r : old_range) : Prop := match r with Triple _ _ _ _ => True | _ => False end.

(** The entries are those of version [v]: quadruples up to version 1; in version 2 either slices or triples. *)
Definition of_version (v : Z) (l : list old_range) : Prop :=
  if v <=? 1 then Forall is_quad l else Forall is_sliced l \/ Forall is_triple l.

(** The first padding that is not 0. *)
Fixpoint first_padding (l : list old_range) : option Z :=
  match l with
  | [] => None
  | r :: l' => if 0 <? pad_of r then Some (pad_of r) else first_padding l'
  end.

(** What an attribute is after the update: the new value if there is one, else the old one. *)
Definition attribute {A} (new old : option A) : option A := match new with Some x => Some x | None => old end.
Definition version_after (o : rs_obj) (d : rs_state) : Z := match attribute (os_version d) (ob_version o) with Some v => v | None => 0 end.
