(** Specification vocabulary for the display of RangeSets, their constructors and slices (C69-C71). *)
From Verif Require Import Py TokenModel RangeSetModel RangeMoreModel RangeSpec.
Open Scope list_scope.
Open Scope Z_scope.

(** A decimal number without superfluous zeros: digits, the first of which is 0 only if it is the only one. *)
Definition canonical (s : str) : Prop := s <> [] /\ Forall (fun c => 48 <= c <= 57)%N s /\ (hd 0%N s = 48%N -> length s = 1%nat).

(** [s] is the text of [z] with at least [pad] characters: the sign, if there is one, as many zeros as
    are needed and no more, and the digits; [int] of the text gives [z] back. *)
Definition padded_text (cc : cclass) (pad z : Z) (s : str) : Prop :=
  py_int cc s = Some z /\
  exists zeros digits, s = (if z <? 0 then lit "-" else []) ++ repeat 48%N zeros ++ digits /\ canonical digits /\
    Z.of_nat (length s) >= pad /\ (zeros <> 0%nat -> Z.of_nat (length s) = pad).

(** [r] is displayed like [a]: same padding, same autostep. *)
Definition displayed_like (r a : rangeset) : Prop := rs_pad r = rs_pad a /\ get_autostep r = get_autostep a.

(** The first padding that is defined. *)
Definition first_pad (p q : option Z) : option Z := match p with Some _ => p | None => q end.

(** The set an item of updaten and fromlist stands for. *)
Definition item_set (cc : cclass) (x : rs_item) (r : rangeset) : Prop :=
  match x with ISet b => r = b | IText s => parse cc s None = Ok r end.

(** The position a slice bound means in a list of [n] elements: negative ones count from the end. *)
Definition meant (n i : Z) : Z := if i <? 0 then i + n else i.
(** Position [k] is chosen by [start:stop:step].  Going up, from [start] (or the first element, if that is further)
    in steps to before [stop]; going down, from [start] (or the last element) to after [stop]. *)
Definition chosen (n : Z) (start stop : option Z) (step k : Z) : Prop :=
  let up := 0 <? step in
  let from := match start with
              | None => if up then 0 else n - 1
              | Some i => if up then Z.max 0 (meant n i) else Z.min (n - 1) (meant n i)
              end in
  0 <= k < n /\ (exists j, 0 <= j /\ k = from + step * j) /\
  match stop with None => True | Some i => if up then k < meant n i else meant n i < k end.

(** The sets that can be read back: some elements, none negative, none above 1E100, and no displayed range of 10^9 numbers or more. *)
Definition can_be_read (r : rangeset) : Prop :=
  rs_elems r <> [] /\ (forall x, has r x -> 0 <= x <= e100) /\ (forall s, In s (slices r) -> sl_stop s - sl_start s < e9).
