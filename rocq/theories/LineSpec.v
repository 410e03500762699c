(** How an indented JSON text is laid out (the manual of Python's json module: members of arrays and
    objects are printed with the indent level given): a line break stands only outside of strings, and
    the line after it begins with [k] blanks for each array or object that is open, not counting one
    that is closed first on this line. *)
From Verif Require Import Py.
Open Scope list_scope.
Open Scope nat_scope.

Inductive place :=
| Outside                     (* outside of strings *)
| Within                      (* in a string *)
| Escape                      (* in a string, after a reverse solidus *)
| Blanks (n : nat).           (* at the beginning of a line, after n blanks *)

Definition opens (c : N) : bool := ((c =? 91) || (c =? 123))%N.
Definition closes (c : N) : bool := ((c =? 93) || (c =? 125))%N.

(** The number of open arrays and objects and the place, after a character outside of strings. *)
Definition after_char (depth : nat) (c : N) : option (nat * place) :=
  if (c =? 34)%N then Some (depth, Within)
  else if (c =? 10)%N then Some (depth, Blanks 0)
  else if opens c then Some (S depth, Outside)
  else if closes c then match depth with 0 => None | S d => Some (d, Outside) end
  else Some (depth, Outside).
Definition next_place (k : nat) (s : nat * place) (c : N) : option (nat * place) :=
  let '(depth, p) := s in
  match p with
  | Within => if (c =? 10)%N then None else if (c =? 34)%N then Some (depth, Outside) else if (c =? 92)%N then Some (depth, Escape) else Some (depth, Within)
  | Escape => if (c =? 10)%N then None else Some (depth, Within)
  | Outside => after_char depth c
  | Blanks n =>
    if (c =? 32)%N then Some (depth, Blanks (S n))
    else if n =? k * (if closes c then depth - 1 else depth) then after_char depth c
    else None
  end.
Fixpoint places (k : nat) (s : nat * place) (t : str) : option (nat * place) :=
  match t with [] => Some s | c :: t' => match next_place k s c with Some s' => places k s' t' | None => None end end.

(** The whole text. *)
Definition laid_out (k : nat) (t : str) : Prop := places k (0, Outside) t = Some (0, Outside).
