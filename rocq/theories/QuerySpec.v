(** Specification of the look-ups in a variant graph. *)
From Verif Require Import Py TokenModel IndexModel GraphModel CollateModel.

(** Some witness of the collation has a token that is compared as [s]. *)
Definition occurs_in (c : collation) (s : str) : Prop := exists w t, In w c /\ In t (w_toks w) /\ t0_str t = s.

(** The two labels that do not come from a token. *)
Definition end_label (s : str) : Prop := s = lit "start" \/ s = lit "end".
