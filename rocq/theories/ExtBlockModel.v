(** Model of collatex/extended_suffix_array.py.  A Block is its ranges, an Occurrence its token
    range, both RangeSets; hash() of a text is a parameter. *)
From Verif Require Import Py TokenModel RangeSetModel.
From Coq Require Import ZArith.
Open Scope list_scope.
Open Scope Z_scope.

(** extended_suffix_array.py:44-47  Block.__eq__ with another Block: the dictionaries of both are
    compared, and so the RangeSets. *)
Definition xblock_eq (a b : rangeset) : bool := rs_eq a b.
(** extended_suffix_array.py:41-42  Block.__hash__ *)
Definition xblock_hash (hash : str -> Z) (a : rangeset) : res Z := s <- rs_str a ;; Ok (hash s).
(** extended_suffix_array.py:49-53  Block.__str__, __repr__ *)
Definition xblock_str (a : rangeset) : res str := s <- rs_str a ;; Ok (lit "Block with occurrences " ++ s).
(** extended_suffix_array.py:51-52 Block.__repr__. *)
Definition xblock_repr (a : rangeset) : res str := s <- rs_str a ;; Ok (lit "Block: " ++ s).

(** extended_suffix_array.py:66-71  Occurrence.lower_end, is_in_range *)
Definition occurrence_lower (r : rangeset) : res Z := rs_getitem r 0.
(** extended_suffix_array.py:69-70 Occurrence.is_in_range. *)
Definition occurrence_in (r : rangeset) (p : Z) : bool := rs_contains r p.

(** [tokens[slice]] for a slice of positions that are not negative. extended_suffix_array.py:24. *)
Definition words_at (words : list str) (s : pslice) : list str :=
  flat_map (fun x => match nth_error words (Z.to_nat x) with Some w => [w] | None => [] end) (py_range (sl_start s) (sl_stop s) (sl_step s)).
(** extended_suffix_array.py:81-85  BlockWitness.debug; [None]: StopIteration of next() on an empty range. *)
Fixpoint witness_debug (words : list str) (occurrences : list rangeset) : option (list str) :=
  match occurrences with
  | [] => Some []
  | r :: l => match slices r, witness_debug words l with
              | s :: _, Some res => Some (str_join (lit " ") (words_at words s) :: res)
              | _, _ => None
              end
  end.

(** extended_suffix_array.py:21-27  list_prefixes: the lines printed. *)
Definition prefix_lines (words : list str) (SA LCP : list nat) : res (list str) :=
  mapM (fun i => k <- aget LCP i ;;
                 if Nat.ltb 0 k then p <- aget SA i ;; Ok (str_join (lit " ") (firstn k (skipn p words))) else Ok (lit "--------"))
       (seq 0 (length LCP)).
