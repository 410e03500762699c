(** The alignments of texts some words of which must not be aligned with earlier texts (C108).  As in AnyProgSpec nothing
    of the program is used. *)
From Verif Require Import Py TokenModel GraphSpec WalkSpec ChosenSpec ProgSpec AnyProgSpec.
Open Scope list_scope.
Open Scope nat_scope.

(** A text whose words are marked: [true] if the word may be aligned. *)
Definition marked_text := list (str * bool).

Section Marked.
  Variables (A : alignment) (text : marked_text).
  (** Word number y (counted from 1) may be aligned and stands at place x. *)
  Definition may_fit (y x : nat) : bool :=
    match y with
    | 0 => false
    | S i => match nth_error text i with Some (s, may) => may && existsb (stands A x s) (nodes A) | None => false end
    end.
  (** The words that meet places on the best way through words and places. *)
  Definition marked_meetings : list (nat * nat) := met (walk may_fit (snd (best_way may_fit (length text) (breadth A)))).
End Marked.

(** [A] comes about by adding the texts one after the other. *)
Inductive marked_one_by_one : list marked_text -> alignment -> Prop :=
| no_marked : marked_one_by_one [] {| node_words := []; threads := [] |}
| one_more_marked : forall texts A text pick, marked_one_by_one texts A -> a_choice A (map fst text) (marked_meetings A text) pick ->
    marked_one_by_one (texts ++ [text]) (add_picked A (map fst text) (marked_meetings A text) pick).

(** The text of a witness, marked by what a filter says of the data of its tokens. *)
Definition marked (h : jdict -> bool) (w : witness) : marked_text := map (fun t => (t0_str t, h (t0_data t))) (w_toks w).
