(** More of ClusterShell/RangeSet.py: the remaining constructors, slices of a set, pickling. *)
From Verif Require Import Py TokenModel RangeSetModel.
Open Scope list_scope.
Open Scope Z_scope.

(** RangeSet.py:103-118  __init__ with a RangeSet: elements and padding are taken over; [self.autostep = autostep]
    follows and replaces the autostep. *)
Definition rs_of_set (r : rangeset) (autostep : option Z) : rangeset :=
  set_autostep {| rs_elems := set_update [] (rs_elems r); rs_pad := rs_pad r; rs_step := rs_step r |} autostep.

(** What updaten accepts in its list: a RangeSet, or a text, from which a RangeSet is made. RangeSet.py:697-707. *)
Inductive rs_item := ISet (r : rangeset) | IText (s : str).

Section Text.
  Variable cc : cclass.
  (** RangeSet.py:697-707  updaten. *)
  Definition rs_updaten (a : rangeset) (l : list rs_item) : res rangeset :=
    foldM (fun a x => match x with
                      | ISet r => Ok (rs_update a r)
                      | IText s => r <- parse cc s None ;; Ok (rs_update a r)
                      end) l a.
  (** RangeSet.py:180-186  fromlist. *)
  Definition rs_fromlist (l : list rs_item) (autostep : option Z) : res rangeset := rs_updaten (rs_empty autostep) l.

  (** RangeSet.py:242-270  pickling ([__reduce__], then [__init__] on the text and [__setstate__] of the current
      version, which puts padding and _autostep back).  copy.deepcopy does the same. *)
  Definition rs_unpickle (r : rangeset) : res rangeset :=
    s <- rs_str r ;; r' <- parse cc s None ;; Ok {| rs_elems := rs_elems r'; rs_pad := rs_pad r; rs_step := rs_step r |}.
End Text.

(** RangeSet.py:188-200  fromone, with an integer. *)
Definition rs_fromone (x pad : Z) (autostep : option Z) : rangeset := rs_add (rs_empty autostep) x pad.
(** The same with a slice ([None]: left out): [inst.add] raises TypeError; [not index.stop] is a ValueError. RangeSet.py:199: [index.start or 0]. *)
Definition or_else (o : option Z) (d : Z) : Z := match o with None => d | Some z => if z =? 0 then d else z end.
(** RangeSet.py:199: fromone, with a slice. *)
Definition rs_fromslice (start stop step : option Z) (pad : Z) (autostep : option Z) : res rangeset :=
  match stop with
  | None => Raise ValueError
  | Some e => if e =? 0 then Raise ValueError else add_range (rs_empty autostep) (or_else start 0) e (or_else step 1) pad
  end.

(** RangeSet.py:709-712  clear. *)
Definition rs_clear (a : rangeset) : rangeset := {| rs_elems := []; rs_pad := None; rs_step := rs_step a |}.

(** Python's [l[start:stop:step]] on a list (PySlice_AdjustIndices). RangeSet.py:418-431. *)
Definition clamp (lo hi n i : Z) : Z := let i := if i <? 0 then i + n else i in if i <? lo then lo else if hi <? i then hi else i.
(** RangeSet.py:418-431: a step that is not given. *)
Definition opt_or {A} (o : option A) (d : A) : A := match o with Some x => x | None => d end.
(** RangeSet.py:418-431: where the slice of the list begins and ends. *)
Definition slice_bounds_of (n : Z) (start stop : option Z) (step : Z) : Z * Z :=
  if 0 <? step then (match start with None => 0 | Some i => clamp 0 n n i end, match stop with None => n | Some i => clamp 0 n n i end)
  else (match start with None => n - 1 | Some i => clamp (-1) (n - 1) n i end, match stop with None => -1 | Some i => clamp (-1) (n - 1) n i end).
(** [range(a, b, s)] for s > 0 and for s < 0. RangeSet.py:418-431. *)
Definition py_range_any (a b s : Z) : list Z := if 0 <? s then py_range a b s else map Z.opp (py_range (- a) (- b) (- s)).
(** RangeSet.py:418-431: the slice of the sorted list. *)
Definition py_slice (l : list Z) (start stop step : option Z) : res (list Z) :=
  let s := opt_or step 1 in
  if s =? 0 then Raise ValueError
  else let '(a, b) := slice_bounds_of (Z.of_nat (length l)) start stop s in
       Ok (flat_map (fun i => match nth_error l (Z.to_nat i) with Some x => [x] | None => [] end) (py_range_any a b s)).

(** RangeSet.py:418-425  __getitem__ with a slice. *)
Definition rs_getslice (a : rangeset) (start stop step : option Z) : res rangeset :=
  l <- py_slice (rs_elems a) start stop step ;;
  Ok {| rs_elems := set_update [] l; rs_pad := rs_pad a; rs_step := rs_step a |}.
