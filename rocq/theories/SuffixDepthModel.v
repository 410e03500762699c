(** linsuffarr.py: the construction and the search of a suffix array with a given limit, on the depth of
    the recursion and on the number of steps. *)
From Verif Require Import Py SuffixModel.

(** linsuffarr.py:406-456  SuffixArray.__init__ as in [suffix_array], when no more than [depth]
    activations of _suffixArrayWithTrace (lines 161-281) may be open at a time: one more raises ([OutOfFuel]
    stands for RecursionError). *)
Definition suffix_array_within (depth : nat) (toks : list str) : res suffarr :=
  let voc := sorted_set toks in
  ids <- mapM (tok_id voc) toks ;;
  let n := length toks in
  SA <- dc3 depth (ids ++ repeat 0 3) (repeat 0 (n + 3)) n (S (length voc)) ;;
  let SA := firstn n SA in
  Ok {| sa_voc := voc; sa_string := ids; sa_SA := SA; sa_LCP := lcp_array ids SA |}.

(** linsuffarr.py:776-822  _findOne as in [find_one], when the loop (lines 803-816) may not be entered more
    than [steps] times. *)
Definition find_one_within (steps : nat) (sa : suffarr) (sub : list str) : res (option nat) :=
  match mapM (tok_id (sa_voc sa)) sub with
  | Raise KeyError => Ok None
  | Raise e => Raise e
  | Ok ids => find_one_loop steps (sa_string sa) (sa_SA sa) ids 0 (length (sa_string sa))
  end.
