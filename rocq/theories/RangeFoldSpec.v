(** Specification vocabulary for C101: what folding by step may not leave out. *)
From Verif Require Import Py RangeSetModel RangeSpec.
Open Scope list_scope.
Open Scope Z_scope.

(** Every element of [l] is as far from the one before it as the others. *)
Definition equally_spaced (l : list Z) : Prop :=
  exists d, forall i, (S i < length l)%nat -> nth (S i) l 0 - nth i l 0 = d.

(** The slices [ss] stand for the single integers [l], in this order. *)
Definition shown_singly (ss : list pslice) (l : list Z) : Prop := Forall2 (fun s x => listing s [x]) ss l.
