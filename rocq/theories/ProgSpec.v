(** The alignment of any number of texts, one after the other (C107).  Nothing of the program's data structures is
    used: no token index, suffix array, blocks, match cube, variant graph, ranking or table. *)
From Verif Require Import Py GraphSpec WalkSpec ChosenSpec.
Open Scope list_scope.
Open Scope nat_scope.

(** An alignment puts every word of every text on a node; words on one node are aligned.  The nodes are numbered
    0, 1, 2, ...; [node_words] says which word stands on each, and [threads] has for each text the nodes of its words. *)
Record alignment := { node_words : list str; threads : list (list nat) }.
Definition nodes (A : alignment) : list nat := seq 0 (length (node_words A)).

(** The pairs of nodes that follow each other in a text. *)
Definition followed (A : alignment) : list (nat * nat) := flat_map pairs (threads A).

(** The place of a node: 1 for a node no other node precedes, otherwise one more than the greatest place of the nodes
    before it.  [fuel] is the greatest place possible. *)
Fixpoint place_of (fuel : nat) (E : list (nat * nat)) (n : nat) : nat :=
  match fuel with
  | 0 => 0
  | S f => S (list_max (map (fun e => place_of f E (fst e)) (filter (fun e => snd e =? n) E)))
  end.
Definition place_in (A : alignment) (n : nat) : nat := place_of (length (node_words A)) (followed A) n.
Definition breadth (A : alignment) : nat := list_max (map (place_in A) (nodes A)).

(** The word [s] stands at place [x], on the node [n]. *)
Definition stands (A : alignment) (x : nat) (s : str) (n : nat) : bool :=
  (place_in A n =? x) && match nth_error (node_words A) n with Some s' => str_eqb s s' | None => false end.

Section Adding.
  Variables (A : alignment) (text : list str).

  (** Word number y of the text (counted from 1) also stands at place x. *)
  Definition fits (y x : nat) : bool :=
    match y with
    | 0 => false
    | S i => match nth_error text i with Some s => existsb (stands A x s) (nodes A) | None => false end
    end.

  (** The words and places that meet on the best way through the text and the places. *)
  Definition meetings : list (nat * nat) := met (walk fits (snd (best_way fits (length text) (breadth A)))).

  (** The node for word number i (counted from 0), if it gets one that exists: the node with this word at the place it
      meets, unless the same word meets this place once more, further on in the text. *)
  Definition old_node (i : nat) : option nat :=
    match nth_error text i, find (fun p => fst p =? S i) meetings with
    | Some s, Some (_, x) =>
      if existsb (fun q => (snd q =? x) && (S i <? fst q) && match nth_error text (fst q - 1) with Some s' => str_eqb s s' | None => false end) meetings
      then None else find (stands A x s) (nodes A)
    | _, _ => None
    end.
End Adding.

(** The other words get new nodes, in the order of the text. *)
Fixpoint with_new (next : nat) (l : list (option nat)) : list nat :=
  match l with
  | [] => []
  | Some n :: l' => n :: with_new next l'
  | None :: l' => next :: with_new (S next) l'
  end.
Fixpoint new_words (l : list (option nat)) (text : list str) : list str :=
  match l, text with
  | Some _ :: l', _ :: text' => new_words l' text'
  | None :: l', s :: text' => s :: new_words l' text'
  | _, _ => []
  end.
Definition add_text (A : alignment) (text : list str) : alignment :=
  let l := map (old_node A text) (seq 0 (length text)) in
  {| node_words := node_words A ++ new_words l text; threads := threads A ++ [with_new (length (node_words A)) l] |}.

Definition progressive (texts : list (list str)) : alignment := fold_left add_text texts {| node_words := []; threads := [] |}.

(** No two nodes at the same place have the same word. *)
Definition clear (A : alignment) : Prop := forall n n' s, nth_error (node_words A) n = Some s -> nth_error (node_words A) n' = Some s ->
  place_in A n = place_in A n' -> n = n'.

(** The number of the word of a text that stands in column x, if there is one. *)
Definition at_column (A : alignment) (thread : list nat) (x : nat) : option nat :=
  find (fun i => match nth_error thread i with Some n => place_in A n =? x | None => false end) (seq 0 (length thread)).
