(** Model of collatex/tokenindex.py and collatex/block.py. *)
From Verif Require Import Py TokenModel SuffixModel.
Open Scope list_scope.

(** A Token object placed in the token array.  Python identifies tokens by object
    identity; here a token is identified by its position in the token array. core_classes.py:165-178 and tokenindex.py:58-64. *)
Record token := { tk_pos : nat; tk_str : str; tk_data : jdict }.

(** tokenindex.py:59. *)
Definition k_sigil : str := lit "_sigil".
(** tokenindex.py:60. *)
Definition k_pos : str := lit "_token_array_position".

(** A witness after TokenIndex.prepare: its Token objects now carry '_sigil' and
    '_token_array_position'. tokenindex.py:58-60. *)
Record iwitness := { iw_sigil : str; iw_toks : list token }.

(** block.py:1-17 Block: start, end and length; the depth is computed in BlockModel. *)
Record block := { b_start : nat; b_end : nat; b_len : nat }.

(** TokenIndex object (tokenindex.py:18-27) after prepare(). *)
Record tindex := {
  ti_wits : list iwitness;
  ti_ranges : list (str * list nat);       (* witness_ranges: RangeSet as sorted list *)
  ti_array : list token;
  ti_sa : list nat;
  ti_lcp : list nat;
  ti_blocks : list block;
  ti_instances : list (str * list (nat * block))  (* witness_to_block_instances *)
}.

(** tokenindex.py:58-61: stamp the tokens of one witness with sigil and position. *)
Fixpoint stamp (sigil : str) (pos : nat) (ts : list tok0) : list token :=
  match ts with
  | [] => []
  | t :: ts' =>
    {| tk_pos := pos; tk_str := t0_str t;
       tk_data := dset str_eqb k_pos (JNum (Z.of_nat pos))
                       (dset str_eqb k_sigil (JStr sigil) (t0_data t)) |}
      :: stamp sigil (pos + 1) ts'
  end.

(** tokenindex.py:64: the marker token put after every witness. *)
Definition marker_str (idx : nat) : str := lit "$" ++ str_of_nat idx.
(** tokenindex.py:64: the marker token of the witness number idx. *)
Definition marker (idx pos : nat) (sigil : str) : token :=
  {| tk_pos := pos; tk_str := marker_str idx;
     tk_data := [(lit "n", JStr (marker_str idx)); (k_sigil, JStr sigil)] |}.

(** RangeSet.add_range on a new RangeSet (ClusterShell/RangeSet.py:457-470);
    the "range too large" assertion (10^9 tokens) is not modelled. *)
Definition range_of (start stop : nat) : res (list nat) :=
  if start <? stop then Ok (seq start (stop - start)) else Raise AssertionError.

(** tokenindex.py:44-66  _prepare_token_array.  Loop state: self.counter,
    token_array_position, witness_ranges, token_array, index, stamped witnesses. *)
Fixpoint prepare_loop (ws : list witness) (idx counter tap : nat)
    (ranges : list (str * list nat)) (arr : list token) (out : list iwitness)
  : res (list (str * list nat) * list token * list iwitness) :=
  match ws with
  | [] => Ok (ranges, arr, out)
  | w :: ws' =>
    let n := length (w_toks w) in
    r <- range_of counter (counter + n) ;;
    let ts := stamp (w_sigil w) tap (w_toks w) in
    prepare_loop ws' (idx + 1) (counter + n + 1) (tap + n + 1)
                 (dset str_eqb (w_sigil w) r ranges)
                 (arr ++ ts ++ [marker idx (tap + n) (w_sigil w)])
                 (out ++ [{| iw_sigil := w_sigil w; iw_toks := ts |}])
  end.

(** [self.token_array.pop()]: IndexError on an empty list. tokenindex.py:66. *)
Definition pop_last {A} (l : list A) : res (list A) :=
  match l with [] => Raise IndexError | _ => Ok (removelast l) end.

(** tokenindex.py:44-66, with the last marker removed. *)
Definition prepare_array (ws : list witness)
  : res (list (str * list nat) * list token * list iwitness) :=
  '(ranges, arr, out) <- prepare_loop ws 0 0 0 [] [] [] ;;
  arr' <- pop_last arr ;;
  Ok (ranges, arr', out).

(** tokenindex.py:68-98  split_lcp_array_into_intervals.  The stack of open
    intervals is a list with its top first; an open interval is (start, length). *)
Fixpoint close_intervals (idx lcp : nat) (open : list (nat * nat)) (closed : list block)
  : list (nat * nat) * list block :=
  match open with
  | (st, len) :: open' =>
    if lcp <? len then
      close_intervals idx lcp open'
        (closed ++ [{| b_start := st; b_end := idx - 1; b_len := len |}])
    else (open, closed)
  | [] => ([], closed)
  end.

(** One iteration of the loop in tokenindex.py:72-88. [closed_intervals[-1]] on an
    empty list is an IndexError. *)
Definition split_step (st : nat * list (nat * nat) * list block) (il : nat * nat)
  : res (nat * list (nat * nat) * list block) :=
  let '(prev, open, closed) := st in
  let '(idx, lcp) := il in
  if prev <? lcp then Ok (lcp, (idx - 1, lcp) :: open, closed)
  else if lcp <? prev then
    let '(open', closed') := close_intervals idx lcp open closed in
    open'' <- (if 0 <? lcp then
                 match rev closed' with
                 | b :: _ => Ok ((b_start b, lcp) :: open')
                 | [] => Raise IndexError
                 end
               else Ok open') ;;
    Ok (lcp, open'', closed')
  else Ok (prev, open, closed).

(** tokenindex.py:68-98. *)
Definition split_lcp (lcps : list nat) : res (list block) :=
  '(_, open, closed) <- foldM split_step (combine (seq 0 (length lcps)) lcps) (0, [], []) ;;
  Ok (closed ++ map (fun '(s, l) => {| b_start := s; b_end := length lcps - 1; b_len := l |})
                    (filter (fun '(_, l) => 0 <? l) (rev open))).

(** block.py:34-37  get_frequency (Python raises for end == 0; closed blocks have end > 0) *)
Definition block_frequency (b : block) : nat := b_end b - b_start b + 1.

(** block.py:39-46  get_all_instances: start tokens of the occurrences. *)
Definition block_instances (sa : list nat) (b : block) : res (list nat) :=
  mapM (aget sa) (seq (b_start b) (b_end b + 1 - b_start b)).

(** block.py:49-57  get_all_occurrences_as_ranges: (start, stop) pairs. *)
Definition block_ranges (sa : list nat) (b : block) : res (list (nat * nat)) :=
  ps <- mapM (aget sa) (seq (b_start b) (b_end b - b_start b)) ;;
  Ok (map (fun p => (p, p + b_len b)) ps).

(** block.py:95-99  get_witness_sigil: the '_sigil' entry of the first token. *)
Definition token_sigil (arr : list token) (p : nat) : res str :=
  t <- aget arr p ;;
  v <- dgetE str_eqb k_sigil (tk_data t) ;;
  match v with JStr s => Ok s | _ => Raise TypeError end.

(** block.py:59-64  _calculate_depth: number of distinct witnesses. *)
Definition block_depth (arr : list token) (sa : list nat) (b : block) : res nat :=
  ps <- block_instances sa b ;;
  sgs <- mapM (token_sigil arr) ps ;;
  Ok (length (sorted_set sgs)).

(** tokenindex.py:133-141  construct_witness_to_block_instances_map. *)
Definition add_instance (arr : list token) (b : block)
    (m : list (str * list (nat * block))) (p : nat) : res (list (str * list (nat * block))) :=
  w <- token_sigil arr p ;;
  let l := match dget str_eqb w m with Some l => l | None => [] end in
  Ok (dset str_eqb w (l ++ [(p, b)]) m).
(** tokenindex.py:133-141. *)
Definition construct_instances (arr : list token) (sa : list nat) (bs : list block)
  : res (list (str * list (nat * block))) :=
  foldM (fun m b => ps <- block_instances sa b ;; foldM (add_instance arr b) ps m) bs [].

(** tokenindex.py:29-36  prepare(). *)
Definition prepare (ws : list witness) : res tindex :=
  '(ranges, arr, out) <- prepare_array ws ;;
  sa <- suffix_array (map tk_str arr) ;;
  blocks <- split_lcp (sa_LCP sa) ;;
  inst <- construct_instances arr (sa_SA sa) blocks ;;
  Ok {| ti_wits := out; ti_ranges := ranges; ti_array := arr; ti_sa := sa_SA sa;
        ti_lcp := sa_LCP sa; ti_blocks := blocks; ti_instances := inst |}.

(** tokenindex.py:100-103 and 127-131. *)
Definition get_range_for_witness (ti : tindex) (sigil : str) : res (list nat) :=
  match dget str_eqb sigil (ti_ranges ti) with
  | Some r => Ok r
  | None => Raise WitnessNotAdded
  end.
(** tokenindex.py:127-128. *)
Definition start_token_position (ti : tindex) (sigil : str) : res nat :=
  r <- get_range_for_witness ti sigil ;; aget r 0.
(** tokenindex.py:130-131. *)
Definition block_instances_for_witness (ti : tindex) (sigil : str) : list (nat * block) :=
  match dget str_eqb sigil (ti_instances ti) with Some l => l | None => [] end.
