(** Model of ClusterShell/RangeSet.py: a set of integers with a text form.  A RangeSet object
    is the ascending list of its elements ([_sorted], lines 222-224; Python's set operations
    on the elements are merges of such lists), its padding and its [_autostep]. *)
From Verif Require Import Py TokenModel.
From Coq Require Decimal DecimalN.
Open Scope list_scope.
Open Scope Z_scope.

(** [rs_step = None] stands for the value 1E100, i.e. autostep switched off. RangeSet.py:103-121. *)
Record rangeset := { rs_elems : list Z; rs_pad : option Z; rs_step : option Z }.

(** A slice object. RangeSet.py:301, 304. *)
Record pslice := { sl_start : Z; sl_stop : Z; sl_step : Z }.

(** The integer value of the float 1E100. RangeSet.py:215. *)
Definition e100 : Z := 10000000000000000159028911097599180468360808563945281389781327557747838772170381060813469985856815104.
(** RangeSet.py:466: 1e9. *)
Definition e9 : Z := 1000000000.

(** Python's [range(a, b, s)] for s > 0. RangeSet.py:470. *)
Definition py_range (a b s : Z) : list Z := map (fun n => a + s * Z.of_nat n) (seq 0 (Z.to_nat ((b - a + s - 1) / s))).

(** set.add and set.update on ascending lists. RangeSet.py:470, 720. *)
Fixpoint set_add (x : Z) (l : list Z) : list Z :=
  match l with
  | [] => [x]
  | y :: l' => if x <? y then x :: l else if x =? y then l else y :: set_add x l'
  end.
(** RangeSet.py:470 set.update. *)
Definition set_update (l : list Z) (xs : list Z) : list Z := fold_left (fun l x => set_add x l) xs l.
(** RangeSet.py:600 set.__contains__. *)
Definition set_mem (x : Z) (l : list Z) : bool := existsb (Z.eqb x) l.

(** RangeSet.py:209-218  set_autostep (argument None or an integer). *)
Definition set_autostep (r : rangeset) (v : option Z) : rangeset :=
  {| rs_elems := rs_elems r; rs_pad := rs_pad r; rs_step := match v with None => None | Some z => Some (z - 1) end |}.
(** RangeSet.py:202-207  get_autostep. *)
Definition get_autostep (r : rangeset) : option Z :=
  match rs_step r with None => None | Some a => if e100 <=? a then None else Some (a + 1) end.

(** RangeSet.py:103-118  __init__ without a text. *)
Definition rs_empty (autostep : option Z) : rangeset := set_autostep {| rs_elems := []; rs_pad := None; rs_step := None |} autostep.
(** RangeSet.py:470: the set of the elements of a list. *)
Definition rs_of_list (l : list Z) (autostep : option Z) : rangeset :=
  set_autostep {| rs_elems := set_update [] l; rs_pad := None; rs_step := None |} autostep.

(** RangeSet.py:457-470  add_range. *)
Definition add_range (r : rangeset) (start stop step pad : Z) : res rangeset :=
  if negb (start <? stop) then Raise AssertionError
  else if negb (0 <? step) then Raise AssertionError
  else if negb (0 <=? pad) then Raise AssertionError
  else if negb (stop - start <? e9) then Raise AssertionError
  else Ok {| rs_elems := set_update (rs_elems r) (py_range start stop step);
             rs_pad := if (0 <? pad) then match rs_pad r with None => Some pad | p => p end else rs_pad r;
             rs_step := rs_step r |}.

(** ** Text: reading *)

(** [s.split(c, 1)] when [c] occurs in [s]. RangeSet.py:136, 150. *)
Fixpoint split1 (c : N) (s : str) : option (str * str) :=
  match s with
  | [] => None
  | x :: s' => if N.eqb x c then Some ([], s')
               else match split1 c s' with Some (a, b) => Some (x :: a, b) | None => None end
  end.
(** [s.split(c)] RangeSet.py:129. *)
Fixpoint split_on (c : N) (s : str) : list str :=
  match s with
  | [] => [[]]
  | x :: s' => if N.eqb x c then [] :: split_on c s'
               else match split_on c s' with p :: ps => (x :: p) :: ps | [] => [[x]] end
  end.

(** Decimal digits, with single underscores between digits ([int] of Python >= 3.6).
    Simplification: only the ASCII digits are digits. RangeSet.py:139, 155-168. *)
Definition digit_of (c : N) : option (Decimal.uint -> Decimal.uint) :=
  match c with
  | 48%N => Some Decimal.D0 | 49%N => Some Decimal.D1 | 50%N => Some Decimal.D2 | 51%N => Some Decimal.D3
  | 52%N => Some Decimal.D4 | 53%N => Some Decimal.D5 | 54%N => Some Decimal.D6 | 55%N => Some Decimal.D7
  | 56%N => Some Decimal.D8 | 57%N => Some Decimal.D9 | _ => None
  end.
(** RangeSet.py:139, 155-168: the digits of int(s). *)
Fixpoint read_digits (s : str) : option Decimal.uint :=
  match s with
  | [] => None
  | c :: s' =>
    match digit_of c with
    | None => None
    | Some d =>
      match s' with
      | [] => Some (d Decimal.Nil)
      | c' :: s'' =>
        match (if N.eqb c' 95 then read_digits s'' else read_digits s') with
        | Some u => Some (d u)
        | None => None
        end
      end
    end
  end.

Section Text.
  Variable cc : cclass.

  (** [int(s)]: white space around, an optional sign, digits; None is a ValueError. RangeSet.py:139, 155-168. *)
  Definition strip (s : str) : str := snd (span (iss cc) (rstrip cc s)).
  (** RangeSet.py:139, 155-168: int(s). *)
  Definition py_int (s : str) : option Z :=
    match strip s with
    | [] => None
    | c :: s' =>
      if N.eqb c 45 then match read_digits s' with Some u => Some (- Z.of_N (N.of_uint u)) | None => None end
      else if N.eqb c 43 then match read_digits s' with Some u => Some (Z.of_N (N.of_uint u)) | None => None end
      else match read_digits (c :: s') with Some u => Some (Z.of_N (N.of_uint u)) | None => None end
    end.
  (** RangeSet.py:138-142, 153-170. *)
  Definition int_or_error (s : str) : res Z := match py_int s with Some z => Ok z | None => Raise RangeSetParseError end.

  (** [s.lstrip("0")] RangeSet.py:156, 165. *)
  Definition lstrip0 (s : str) : str := snd (span (N.eqb 48) s).

  (** RangeSet.py:131-178: one subrange. *)
  Definition parse_subrange (r : rangeset) (subrange : str) : res rangeset :=
    '(baserange, step) <- match split1 47 subrange with
                          | None => Ok (subrange, 1)
                          | Some (b, s) => st <- int_or_error s ;; Ok (b, st)
                          end ;;
    '(beg, en) <- match split1 45 baserange with
                  | None => if negb (step =? 1) then Raise RangeSetParseError else Ok (baserange, baserange)
                  | Some be => Ok be
                  end ;;
    b <- int_or_error beg ;;
    '(start, pad) <- (if negb (b =? 0) then
                        let begins := lstrip0 beg in
                        let pad := if 0 <? Z.of_nat (length beg) - Z.of_nat (length begins) then Z.of_nat (length beg) else 0 in
                        s <- int_or_error begins ;; Ok (s, pad)
                      else Ok (0, if 1 <? Z.of_nat (length beg) then Z.of_nat (length beg) else 0)) ;;
    e <- int_or_error en ;;
    stop <- int_or_error (if negb (e =? 0) then lstrip0 en else en) ;;
    if (e100 <? stop) || (stop <? start) || (step <? 1) then Raise RangeSetParseError
    else add_range r start (stop + 1) step pad.

  (** RangeSet.py:120-131  _parse, called by __init__. *)
  Definition parse (pattern : str) (autostep : option Z) : res rangeset :=
    foldM parse_subrange (split_on 44 pattern) (rs_empty autostep).
End Text.

(** ** The ranges of a set *)

(** RangeSet.py:293-304  _contiguous_slices; [kj] holds k and j. *)
Fixpoint contiguous_loop (l : list Z) (kj : option (Z * Z)) : list pslice :=
  match l with
  | [] => match kj with None => [] | Some (k, j) => [{| sl_start := k; sl_stop := j + 1; sl_step := 1 |}] end
  | i :: l' =>
    let '(k, j) := match kj with None => (i, i) | Some p => p end in
    if 1 <? i - j then {| sl_start := k; sl_stop := j + 1; sl_step := 1 |} :: contiguous_loop l' (Some (i, i))
    else contiguous_loop l' (Some (k, i))
  end.
(** RangeSet.py:293-304, the whole of it. *)
Definition contiguous_slices (r : rangeset) : list pslice := contiguous_loop (rs_elems r) None.

(** The variables of _folded_slices: prng (without its step, which is always 1), istart, m, i, k. RangeSet.py:306-385. *)
Record fstate := { f_prng : option (Z * Z); f_istart : Z; f_m : Z; f_i : Z; f_k : Z }.

(** RangeSet.py:333, 360, 362: slice(j, j + 1, 1). *)
Definition unit_slice (j : Z) : pslice := {| sl_start := j; sl_stop := j + 1; sl_step := 1 |}.
(** RangeSet.py:330, 350: the slice of the three numbers of prng. *)
Definition prng_slice (p : Z * Z) : pslice := {| sl_start := fst p; sl_stop := snd p; sl_step := 1 |}.

(** RangeSet.py:346-353 and 394-401: yield a pending range; gives istart. *)
Definition flush_prng (stepped : bool) (m : Z) (prng : option (Z * Z)) (istart : Z) : list pslice * Z :=
  match prng with
  | None => ([], istart)
  | Some (a, b) => if stepped then ([prng_slice (a, b - 1)], istart) else ([prng_slice (a, b)], istart + m)
  end.

(** RangeSet.py:315-385: one iteration (a: self._autostep); [None]: istart is None.  Gives the
    slices yielded and the new variables. *)
Definition folded_step (a : Z) (st : option fstate) (sli : pslice) : list pslice * fstate :=
  let start := sl_start sli in
  let stop := sl_stop sli in
  let unitary := start + 1 =? stop in
  match st with
  | None =>
    let '(prng, istart) := if unitary then (None, start) else (Some (start, stop), stop - 1) in
    ([], {| f_prng := prng; f_istart := istart; f_m := istart - istart; f_i := istart; f_k := istart |})
  | Some {| f_prng := prng; f_istart := istart; f_m := m; f_i := i; f_k := k |} =>
    if m =? 0 then
      if negb unitary then
        ([match prng with Some p => prng_slice p | None => unit_slice istart end],
         {| f_prng := Some (start, stop); f_istart := stop - 1; f_m := m; f_i := i; f_k := stop - 1 |})
      else
        ([], {| f_prng := prng; f_istart := istart; f_m := start - k; f_i := start; f_k := start |})
    else
      let i := start in
      let broken := negb (m =? i - k) in
      if broken || negb unitary then
        let j := if m =? i - k then i else k in
        let stepped := a * m <=? j - istart in
        let '(out1, istart) := flush_prng stepped m prng istart in
        if broken then
          let out2 := if stepped then [{| sl_start := istart; sl_stop := k + 1; sl_step := m |}]
                      else map unit_slice (py_range istart (k - m + 1) m) ++ (if negb unitary then [unit_slice k] else []) in
          if unitary then
            if stepped then
              (out1 ++ out2, {| f_prng := None; f_istart := start; f_m := 0; f_i := start; f_k := start |})
            else
              (out1 ++ out2, {| f_prng := None; f_istart := k; f_m := i - k; f_i := i; f_k := i |})
          else
            (out1 ++ out2, {| f_prng := Some (start, stop); f_istart := stop - 1; f_m := 0; f_i := stop - 1; f_k := stop - 1 |})
        else
          let '(out2, i) := if stepped then ([{| sl_start := istart; sl_stop := i + 1; sl_step := m |}], i + 1)
                            else (map unit_slice (py_range istart (i - m + 1) m), i) in
          (out1 ++ out2, {| f_prng := if i + 1 <? stop then Some (i, stop) else None;
                            f_istart := stop - 1; f_m := 0; f_i := stop - 1; f_k := stop - 1 |})
      else
        ([], {| f_prng := prng; f_istart := istart; f_m := i - k; f_i := i; f_k := i |})
  end.

(** RangeSet.py:386-406: after the loop. *)
Definition folded_end (a : Z) (st : fstate) : list pslice :=
  let '{| f_prng := prng; f_istart := istart; f_m := m; f_i := i; f_k := k |} := st in
  if m =? 0 then [match prng with Some p => prng_slice p | None => unit_slice istart end]
  else
    let stepped := a * m <=? k - istart in
    let '(out1, istart) := flush_prng stepped m prng istart in
    out1 ++ (if stepped then [{| sl_start := istart; sl_stop := i + 1; sl_step := m |}]
             else map unit_slice (py_range istart (i + 1) m)).

(** RangeSet.py:306-406: the loop and what follows it. *)
Fixpoint folded_loop (a : Z) (l : list pslice) (st : option fstate) : list pslice :=
  match l with
  | [] => match st with None => [] | Some s => folded_end a s end
  | sli :: l' => let '(out, st') := folded_step a st sli in out ++ folded_loop a l' (Some st')
  end.

(** RangeSet.py:306-406  _folded_slices.  The assertions [m > 0] hold (see RangeProof). *)
Definition folded_slices (a : Z) (r : rangeset) : list pslice := folded_loop a (contiguous_slices r) None.

(** RangeSet.py:408-416  slices. *)
Definition slices (r : rangeset) : list pslice :=
  match rs_step r with
  | None => contiguous_slices r
  | Some a => if e100 <=? a then contiguous_slices r else folded_slices a r
  end.

(** ** Text: writing *)

(** ["%0*d" % (pad, z)] RangeSet.py:234, 276, 280, 282. *)
Definition fmt (pad z : Z) : str :=
  let body := uint_chars (N.to_uint (Z.abs_N z)) in
  let sign := if z <? 0 then [45%N] else [] in
  sign ++ repeat 48%N (Z.to_nat pad - length sign - length body) ++ body.

(** RangeSet.py:271-283  _strslices.  [padding or 0]. *)
Definition rs_padding (r : rangeset) : Z := match rs_pad r with None => 0 | Some p => p end.
(** RangeSet.py:271-283 _strslices: the text of one slice. *)
Definition str_slice (pad : Z) (s : pslice) : res str :=
  if sl_start s + 1 =? sl_stop s then Ok (fmt pad (sl_start s))
  else if negb (0 <=? sl_step s) then Raise AssertionError
  else if sl_step s =? 1 then Ok (fmt pad (sl_start s) ++ lit "-" ++ fmt pad (sl_stop s - 1))
  else Ok (fmt pad (sl_start s) ++ lit "-" ++ fmt pad (sl_stop s - 1) ++ lit "/" ++ fmt 0 (sl_step s)).

(** RangeSet.py:285-287  __str__. *)
Definition rs_str (r : rangeset) : res str :=
  ps <- mapM (str_slice (rs_padding r)) (slices r) ;; Ok (str_join (lit ",") ps).

(** RangeSet.py:236-240  contiguous, through fromone (lines 188-200): [inst.add] raises
    TypeError for a slice, so add_range is called; [not index.stop] is a ValueError. *)
Definition rs_contiguous (r : rangeset) : res (list rangeset) :=
  mapM (fun s => if sl_stop s =? 0 then Raise ValueError
                 else add_range (rs_empty None) (sl_start s) (sl_stop s) (sl_step s) (rs_padding r))
       (contiguous_slices r).

(** ** Set operations *)

(** RangeSet.py:472-478  copy. *)
Definition rs_copy (r : rangeset) : rangeset := {| rs_elems := set_update [] (rs_elems r); rs_pad := rs_pad r; rs_step := rs_step r |}.
(** RangeSet.py:482-493  __eq__: same number of elements and subset. *)
Definition rs_eq (a b : rangeset) : bool :=
  Nat.eqb (length (rs_elems a)) (length (rs_elems b)) && forallb (fun x => set_mem x (rs_elems b)) (rs_elems a).
(** RangeSet.py:504-510, 521-526, 559-564: in Python 3, set.union and set.symmetric_difference of a
    subclass give a plain set, which has no attribute [_autostep]: AttributeError. *)
Definition rs_union (a b : rangeset) : res rangeset := Raise AttributeError.
(** RangeSet.py:559-564 symmetric_difference. *)
Definition rs_symmetric_difference (a b : rangeset) : res rangeset := Raise AttributeError.
(** RangeSet.py:537-548 and 575-586. *)
Definition rs_intersection (a b : rangeset) : rangeset :=
  {| rs_elems := filter (fun x => set_mem x (rs_elems b)) (rs_elems (rs_copy a)); rs_pad := rs_pad a; rs_step := rs_step a |}.
(** RangeSet.py:575-586 difference. *)
Definition rs_difference (a b : rangeset) : rangeset :=
  {| rs_elems := filter (fun x => negb (set_mem x (rs_elems b))) (rs_elems (rs_copy a)); rs_pad := rs_pad a; rs_step := rs_step a |}.
(** RangeSet.py:688-695  update with a RangeSet (union_update, lines 645-647, calls it). *)
Definition rs_update (a b : rangeset) : rangeset :=
  {| rs_elems := set_update (rs_elems a) (rs_elems b);
     rs_pad := match rs_pad a with None => rs_pad b | p => p end; rs_step := rs_step a |}.
(** RangeSet.py:716-722 and 732-741  add and discard (integer argument). *)
Definition rs_add (a : rangeset) (x pad : Z) : rangeset :=
  {| rs_elems := set_add x (rs_elems a);
     rs_pad := if 0 <? pad then match rs_pad a with None => Some pad | p => p end else rs_pad a; rs_step := rs_step a |}.
(** RangeSet.py:732-741 discard. *)
Definition rs_discard (a : rangeset) (x : Z) : rangeset :=
  {| rs_elems := filter (fun y => negb (y =? x)) (rs_elems a); rs_pad := rs_pad a; rs_step := rs_step a |}.
(** RangeSet.py:433-455  split: [len(self) / nbr] is a float in Python 3, so the slice
    [self[begin:begin + length]] raises TypeError; no iteration for an empty set. *)
Definition rs_split (a : rangeset) (nbr : Z) : res (list rangeset) :=
  if negb (0 <? nbr) then Raise AssertionError
  else match rs_elems a with [] => Ok [] | _ => Raise TypeError end.

(** RangeSet.py:604-624  issubset, issuperset and the comparisons. *)
Definition rs_issubset (a b : rangeset) : bool := forallb (fun x => set_mem x (rs_elems b)) (rs_elems a).
(** RangeSet.py:609-612 issuperset. *)
Definition rs_issuperset (a b : rangeset) : bool := rs_issubset b a.
(** RangeSet.py:618-620 __lt__. *)
Definition rs_lt (a b : rangeset) : bool := Nat.ltb (length (rs_elems a)) (length (rs_elems b)) && rs_issubset a b.
(** RangeSet.py:590-603  __contains__ with an integer, and with a set. *)
Definition rs_contains (a : rangeset) (x : Z) : bool := set_mem x (rs_elems a).
(** RangeSet.py:590-600 __contains__ with a set. *)
Definition rs_contains_set (a b : rangeset) : bool := rs_issubset b a.
(** RangeSet.py:649-657  the in-place intersection keeps padding and autostep. *)
Definition rs_intersection_update (a b : rangeset) : rangeset :=
  {| rs_elems := filter (fun x => set_mem x (rs_elems b)) (rs_elems a); rs_pad := rs_pad a; rs_step := rs_step a |}.
(** RangeSet.py:659-669  the in-place symmetric difference. *)
Definition rs_symmetric_difference_update (a b : rangeset) : rangeset :=
  {| rs_elems := set_update (filter (fun x => negb (set_mem x (rs_elems b))) (rs_elems a))
                            (filter (fun x => negb (set_mem x (rs_elems a))) (rs_elems b));
     rs_pad := rs_pad a; rs_step := rs_step a |}.
(** RangeSet.py:671-684  the in-place difference; with [strict], KeyError unless [b] is a subset. *)
Definition rs_difference_update (a b : rangeset) (strict : bool) : res rangeset :=
  if strict && negb (rs_contains_set a b) then Raise KeyError
  else Ok {| rs_elems := filter (fun x => negb (set_mem x (rs_elems b))) (rs_elems a); rs_pad := rs_pad a; rs_step := rs_step a |}.
(** RangeSet.py:639-643  [|=]: as update, but the padding is not taken over. *)
Definition rs_ior (a b : rangeset) : rangeset :=
  {| rs_elems := set_update (rs_elems a) (rs_elems b); rs_pad := rs_pad a; rs_step := rs_step a |}.
(** RangeSet.py:724-730  remove. *)
Definition rs_remove (a : rangeset) (x : Z) : res rangeset :=
  if set_mem x (rs_elems a) then Ok (rs_discard a x) else Raise KeyError.
(** RangeSet.py:230-234  striter. *)
Definition rs_striter (a : rangeset) : list str := map (fmt (rs_padding a)) (rs_elems a).
(** RangeSet.py:426-429  __getitem__ with an integer. *)
Definition rs_getitem (a : rangeset) (i : Z) : res Z :=
  let n := Z.of_nat (length (rs_elems a)) in
  let j := if i <? 0 then i + n else i in
  if (j <? 0) || (n <=? j) then Raise IndexError
  else match nth_error (rs_elems a) (Z.to_nat j) with Some x => Ok x | None => Raise IndexError end.
