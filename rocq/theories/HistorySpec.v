(** A user's session with one Collation object (C33): the calls, and what they do to it. *)
From Verif Require Import Py TokenModel IndexModel GraphModel CollateModel.
From Coq Require Import QArith.
Open Scope list_scope.

Inductive call :=
| AddWitness (d : jdict)             (* collation.add_witness(d) *)
| AddPlain (sigil content : str)     (* collation.add_plain_witness(sigil, content) *)
| Collate (o : options).             (* collate(collation, **o) *)

(** The object after a call.  A failing add leaves it unchanged (the append is the last
    step, core_classes.py:41-43); collate changes the token data whether it succeeds or not. *)
Definition after_call (cc : cclass) (c : collation) (x : call) : collation :=
  match x with
  | AddWitness d => match add_witness cc c d with Ok c' => c' | Raise _ => c end
  | AddPlain s t => match add_plain_witness cc c s t with Ok c' => c' | Raise _ => c end
  | Collate o => collate_effect c o
  end.
Definition after_session (cc : cclass) (h : list call) : collation := fold_left (after_call cc) h collation_empty.

(** The session without the collate calls. *)
Definition adds (h : list call) : list call := filter (fun x => match x with Collate _ => false | _ => true end) h.

(** The answers of the collate calls of a session, in order. *)
Fixpoint answers (cc : cclass) topo ratio (c : collation) (h : list call) : list (res output) :=
  match h with
  | [] => []
  | Collate o :: h' => collate cc topo ratio c o :: answers cc topo ratio (after_call cc c (Collate o)) h'
  | x :: h' => answers cc topo ratio (after_call cc c x) h'
  end.

(** The same calls, each collate call on a fresh object holding the witnesses added so far
    ([done]: the add calls so far). *)
Fixpoint fresh_answers (cc : cclass) topo ratio (done h : list call) : list (res output) :=
  match h with
  | [] => []
  | Collate o :: h' => collate cc topo ratio (after_session cc done) o :: fresh_answers cc topo ratio done h'
  | x :: h' => fresh_answers cc topo ratio (done ++ [x]) h'
  end.

(** The same witness, but for the two keys collate writes into the token data. *)
Definition same_but_marks (w w' : witness) : Prop := w_sigil w' = w_sigil w /\
  Forall2 (fun t t' => t0_str t' = t0_str t /\ forall k, k <> lit "_sigil" -> k <> lit "_token_array_position" ->
             dget str_eqb k (t0_data t') = dget str_eqb k (t0_data t)) (w_toks w) (w_toks w').
