(** The alignments of any number of texts, one after the other, where a word may stand on several nodes at one place
    (C107).  As in ProgSpec nothing of the program is used. *)
From Verif Require Import Py GraphSpec WalkSpec ChosenSpec ProgSpec.
Open Scope list_scope.
Open Scope nat_scope.

Section Adding.
  (** The alignment so far, the words of the text, and the pairs of a word (counted from 1) and the place it meets. *)
  Variables (A : alignment) (text : list str) (ms : list (nat * nat)).

  (** Word number i (counted from 0) meets a place. *)
  Definition meets (i : nat) : bool := existsb (fun p => fst p =? S i) ms.

  (** A choice of nodes: for every word that meets a place a node with this word at this place. *)
  Definition a_choice (pick : nat -> nat) : Prop :=
    forall i s x, nth_error text i = Some s -> In (S i, x) ms -> stands A x s (pick i) = true.

  (** A word that meets a place gets the node chosen for it, unless this node is also chosen for a word that meets a
      place further on in the text. *)
  Definition picked_node (pick : nat -> nat) (i : nat) : option nat :=
    if meets i && negb (existsb (fun q => (S i <? fst q) && (pick (fst q - 1) =? pick i)) ms) then Some (pick i) else None.

  (** The other words get new nodes, in the order of the text. *)
  Definition add_picked (pick : nat -> nat) : alignment :=
    let l := map (picked_node pick) (seq 0 (length text)) in
    {| node_words := node_words A ++ new_words l text; threads := threads A ++ [with_new (length (node_words A)) l] |}.
End Adding.

(** [A] comes about by adding the texts one after the other, with some choice of nodes for each. *)
Inductive one_by_one : list (list str) -> alignment -> Prop :=
| no_text : one_by_one [] {| node_words := []; threads := [] |}
| one_more : forall texts A text pick, one_by_one texts A -> a_choice A text (meetings A text) pick -> one_by_one (texts ++ [text]) (add_picked A text (meetings A text) pick).
