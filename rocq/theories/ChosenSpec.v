(** Which of the possible alignments of two texts is chosen. *)
From Verif Require Import Py WalkSpec.
Open Scope list_scope.
Open Scope nat_scope.

(** Word number y of the text [b] is word number x of the text [a]; the numbers begin with 1. *)
Definition same_word (a b : list str) (y x : nat) : bool :=
  match y, x with
  | S j, S i => match nth_error b j, nth_error a i with Some s, Some t => str_eqb s t | _, _ => false end
  | _, _ => false
  end.

Section Chosen.
  Variable M : nat -> nat -> bool.

  (** A way, with its points, is continued by a move that leads to token y and rank x. *)
  Definition and_then (m : move) (y x : nat) (r : Z * list move) : Z * list move :=
    ((fst r + (if is_hit M m y x then 1 else -1))%Z, snd r ++ [m]).
  (** The second way is taken only if it has more points. *)
  Definition unless_better (r r' : Z * list move) : Z * list move := if (fst r <? fst r')%Z then r' else r.

  (** The way to token y and rank x, with its points, by the textbook recursion: the best of the
      three ways that end with a pair, an omission or an addition, and the first of the best. *)
  Fixpoint best_way (y : nat) : nat -> Z * list move :=
    match y with
    | 0 => fix row x := match x with 0 => (0%Z, []) | S x' => and_then Omit 0 x (row x') end
    | S y' => fix row x :=
        match x with
        | 0 => and_then Add y 0 (best_way y' 0)
        | S x' => unless_better (unless_better (and_then Pair y x (best_way y' x')) (and_then Omit y x (row x'))) (and_then Add y x (best_way y' x))
        end
    end.
End Chosen.

(** The pairs of positions of the texts [a] and [b] that are matched on the way to their ends.
    Where several words of [b] match the same word of [a] the last of them is paired. *)
Definition chosen_pairs (a b : list str) : list (nat * nat) :=
  let l := met (walk (same_word a b) (snd (best_way (same_word a b) (length b) (length a)))) in
  map (fun p => (snd p - 1, fst p - 1))
      (filter (fun p => negb (existsb (fun q => (snd q =? snd p) && (fst p <? fst q)) l)) l).
