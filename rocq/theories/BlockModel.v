(** Model of the parts of block.py that the aligner does not use. *)
From Verif Require Import Py TokenModel IndexModel.
Open Scope list_scope.
Open Scope nat_scope.

(** block.py:91-93  Instance.get_tokens: the slice of the token array, in a list of one element. *)
Definition instance_tokens (arr : list token) (p : nat) (b : block) : list (list token) :=
  [firstn (b_len b) (skipn p arr)].

(** block.py:26-27  Block.__lt__ *)
Definition block_lt (b1 b2 : block) : bool :=
  (b_start b1 <? b_start b2) && (b_end b1 <? b_end b2).
