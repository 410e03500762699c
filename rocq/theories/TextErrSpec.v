(** What is wrong with the text of a token: it has no 't' entry (KeyError), or the entry is
    not a text (TypeError). *)
From Verif Require Import Py TokenModel.

Definition text_error (d : jdict) (e : exn) : Prop :=
  (e = KeyError /\ dget str_eqb (lit "t") d = None) \/
  (e = TypeError /\ exists v, dget str_eqb (lit "t") d = Some v /\ forall s, v <> JStr s).
(** Some token of some witness has that fault. *)
Definition some_text_error (c : collation) (e : exn) : Prop :=
  exists w t0, In w c /\ In t0 (w_toks w) /\ text_error (t0_data t0) e.
(** Every entry "t" is a text. *)
Definition texts_or_nothing (c : collation) : Prop :=
  forall w t0 v, In w c -> In t0 (w_toks w) -> dget str_eqb (lit "t") (t0_data t0) = Some v -> exists s, v = JStr s.
