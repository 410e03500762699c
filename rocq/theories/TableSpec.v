(** Specification vocabulary for alignment tables. *)
From Verif Require Import Py TokenModel SuffixModel IndexModel GraphModel TableModel.

(** The tokens of a row, read from left to right; empty cells contribute nothing. *)
Definition cell_tokens (c : cell) : list token := match c with Some ts => ts | None => [] end.
Definition row_tokens (r : row) : list token := flat_map cell_tokens (r_cells r).

(** [t] came from the input token [t0] of witness [sg]: same reading, and the data of
    the input token with the two bookkeeping entries written by collatex. *)
Definition came_from (sg : str) (t0 : tok0) (t : token) : Prop :=
  tk_str t = t0_str t0 /\
  tk_data t = dset str_eqb (lit "_token_array_position") (JNum (Z.of_nat (tk_pos t)))
                   (dset str_eqb (lit "_sigil") (JStr sg) (t0_data t0)).

(** The graph path [p] carries the witness [w]: its siglum and exactly its tokens, in order. *)
Definition carries (w : witness) (p : str * list (nat * list token)) : Prop :=
  fst p = w_sigil w /\ Forall2 (came_from (w_sigil w)) (w_toks w) (flat_map snd (snd p)).
