(** The segments of an alignment (C107 with segmentation).  As in ProgSpec nothing of the program is used. *)
From Verif Require Import Py GraphSpec WalkSpec ChosenSpec PairSpec SegTableSpec ProgSpec.
Open Scope list_scope.
Open Scope nat_scope.

(** The steps of a thread, from before its first node to behind its last one. *)
Definition thread_steps (th : list nat) : list (option nat * option nat) := pairs (None :: map Some th ++ [None]).
Definition is_node (n : nat) (x : option nat) : bool := match x with Some m => m =? n | None => false end.

(** The nodes m and n belong together: whatever thread has one of them has the other one, n directly behind m. *)
Definition together (A : alignment) (m n : nat) : bool :=
  forallb (fun th => forallb (fun e => Bool.eqb (is_node m (fst e)) (is_node n (snd e))) (thread_steps th)) (threads A).

(** The segments of a thread: the longest stretches of nodes that belong together. *)
Fixpoint segments (A : alignment) (th : list nat) : list (list nat) :=
  match th with
  | [] => []
  | n :: th' =>
    match segments A th' with
    | (m :: s) :: l => if together A n m then (n :: m :: s) :: l else [n] :: (m :: s) :: l
    | l => [n] :: l
    end
  end.

(** The alignment of the segments: a segment is known by its first node; the other nodes are on no thread. *)
Definition segmented (A : alignment) : alignment :=
  {| node_words := node_words A; threads := map (fun th => map (hd 0) (segments A th)) (threads A) |}.
Definition columns_of (A : alignment) : nat := list_max (map (place_in A) (concat (threads A))).

(** The positions of the words of the text with the thread [th] in column x: those of the segment with place x. *)
Definition segment_at (A : alignment) (th : list nat) (x : nat) : list nat :=
  match at_column (segmented A) (map (hd 0) (segments A th)) x with
  | Some i => positions (length (concat (firstn i (segments A th)))) (length (concat (firstn (S i) (segments A th))))
  | None => []
  end.
