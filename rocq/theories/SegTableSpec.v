(** Specification vocabulary for C104: the table of two witnesses with segmentation. *)
From Verif Require Import Py TokenModel IndexModel GraphModel TableModel TableSpec PairSpec.
Open Scope list_scope.
Open Scope nat_scope.

(** A column: whether the witnesses agree in it, and the positions of the tokens of either witness. *)
Definition stretch := (bool * list nat * list nat)%type.

(** The positions i, ..., x-1. *)
Definition positions (i x : nat) : list nat := seq i (x - i).

(** The column for the unpaired positions i, ..., x-1 of the first and j, ..., y-1 of the second text: none
    if there are no such positions. *)
Definition unpaired (i x j y : nat) : list stretch :=
  if (i <? x) || (j <? y) then [(false, positions i x, positions j y)] else [].

(** The column for the run of pairs (a,b), (a+1,b+1), ... up to (i,j), which is not in it. *)
Definition run (a i b j : nat) : list stretch :=
  if a <? i then [(true, positions a i, positions b j)] else [].

(** The columns for the pairs [P] of two texts of lengths n and m, when the positions up to i and j are dealt
    with but for a run that began at a and b: a run goes on as long as the next pair stands right after it in
    both texts. *)
Fixpoint stretches (a b i j n m : nat) (P : list (nat * nat)) : list stretch :=
  match P with
  | [] => run a i b j ++ unpaired i n j m
  | (x, y) :: P' =>
    if (x =? i) && (y =? j) then stretches a b (S x) (S y) n m P'
    else run a i b j ++ unpaired i x j y ++ stretches x y (S x) (S y) n m P'
  end.

(** The cell shows the tokens of the witness at these positions, in this order; it is empty if there are none. *)
Definition shows_all (w : witness) (l : list nat) (c : cell) : Prop :=
  match l with
  | [] => c = None
  | _ => exists ts, c = Some ts /\ Forall2 (fun i t => exists t0, nth_error (w_toks w) i = Some t0 /\ came_from (w_sigil w) t0 t) l ts
  end.
