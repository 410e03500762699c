(** Specification for the scorer and the collate method of the A* aligner (C83, C84). *)
From Verif Require Import Py TokenModel IndexModel GraphModel GraphSpec.
From Coq Require Import Sorting.Sorted.
Open Scope list_scope.
Open Scope nat_scope.

(** Blocks that have no position in common. *)
Definition apart (bs : list (list nat)) : Prop :=
  forall i j b b' x, nth_error bs i = Some b -> nth_error bs j = Some b' -> In x b -> In x b' -> i = j.

(** Some block contains both positions. *)
Definition in_one_block (bs : list (list nat)) (p q : nat) : Prop := exists b, In b bs /\ In p b /\ In q b.

(** No word stands at two positions. *)
Definition no_repetition (text : list str) : Prop :=
  forall p q w, nth_error text p = Some w -> nth_error text q = Some w -> p = q.

(** The tokens that the witness [sg] has on the vertex [v], in the order in which they were put there. *)
Definition reading_on (g : graph) (sg : str) (v : vid) : list token :=
  match dget Nat.eqb v (g_verts g) with
  | Some vx => match dget str_eqb sg (v_tokens vx) with Some l => l | None => [] end
  | None => []
  end.

(** The witness [sg] with the tokens [ts] runs through the graph: token number i stands on vertex
    number i of [path], on every vertex stand those tokens and no others, and there are edges from
    start along the path to the end. *)
Definition threaded (g : graph) (sg : str) (ts : list token) (path : list vid) : Prop :=
  length path = length ts /\
  (forall v, reading_on g sg v = map fst (filter (fun tv => snd tv =? v) (combine ts path))) /\
  (forall u v, In (u, v) (pairs (v_start :: path ++ [v_end])) -> edge g u v) /\
  (forall v, In v path -> In v (vertices g)).
