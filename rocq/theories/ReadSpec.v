(** Specification vocabulary: a witness whose text can be read in a variant graph. *)
From Verif Require Import Py TokenModel IndexModel GraphModel GraphSpec WalkSpec.
From Coq Require Import Relations.
Open Scope list_scope.
Open Scope nat_scope.

(** The words [ss] stand on the vertices [vs], and each of these vertices is reached from the
    one before: [ss] are words of one way through the graph, perhaps with others between them. *)
Definition reads_along (g : graph) (vs : list vid) (ss : list str) : Prop :=
  Forall2 (reads g) vs ss /\ forall u v, In (u, v) (pairs vs) -> clos_trans vid (edge g) u v.

(** [l1] is [l2] with some elements left out. *)
Inductive excerpt {A} : list A -> list A -> Prop :=
| ex_nil : forall l, excerpt [] l
| ex_keep : forall a l1 l2, excerpt l1 l2 -> excerpt (a :: l1) (a :: l2)
| ex_skip : forall a l1 l2, excerpt l1 l2 -> excerpt l1 (a :: l2).
