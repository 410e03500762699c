(** Specification vocabulary: where the witnesses stand in the token array.  Each witness is followed by one
    marker token (the last one by nothing). *)
From Verif Require Import Py TokenModel IndexModel.
Open Scope list_scope.
Open Scope nat_scope.

Definition begins (c : list witness) (k : nat) : nat :=
  list_sum (map (fun w => S (length (w_toks w))) (firstn k c)).

(** Position [p] of the token array belongs to witness number [k]. *)
Definition belongs (c : list witness) (p k : nat) : Prop :=
  k < length c /\ begins c k <= p < begins c (S k).
