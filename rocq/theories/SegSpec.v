(** Specification vocabulary: the alignment of tokens in graphs with and without segments. *)
From Verif Require Import Py TokenModel IndexModel GraphModel.
Open Scope list_scope.
Open Scope nat_scope.

(** The token [t] of witness [sg] and [t'] of [sg'] stand on the same vertex, at the same place of the segment. *)
Definition aligned_at (g : graph) (sg : str) (t : token) (sg' : str) (t' : token) : Prop :=
  exists v vx ts ts' i, dget Nat.eqb v (g_verts g) = Some vx /\
    dget str_eqb sg (v_tokens vx) = Some ts /\ dget str_eqb sg' (v_tokens vx) = Some ts' /\
    nth_error ts i = Some t /\ nth_error ts' i = Some t'.
