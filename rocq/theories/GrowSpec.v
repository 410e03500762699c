(** Specification vocabulary: a variant graph to which witnesses are added. *)
From Verif Require Import Py TokenModel IndexModel GraphModel AlignModel TableModel CollateModel GraphSpec.
Open Scope list_scope.
Open Scope nat_scope.

(** No two vertices at the same distance from the start have the same reading. *)
Definition unambiguous (g : graph) : Prop :=
  forall rk v v' vx vx', longest_from_start g rk ->
    dget Nat.eqb v (g_verts g) = Some vx -> dget Nat.eqb v' (g_verts g) = Some vx' ->
    rk v = rk v' -> v_label vx = v_label vx' -> v = v'.

(** [g'] is [g] with other witnesses added: every vertex of [g] is there with the same label
    and the same tokens of the witnesses [sgs], these witnesses have no tokens elsewhere, and
    every edge of [g] is there. *)
Record grown (sgs : list str) (g g' : graph) : Prop := {
  gr_vertex : forall v vx, dget Nat.eqb v (g_verts g) = Some vx ->
    exists vx', dget Nat.eqb v (g_verts g') = Some vx' /\ v_label vx' = v_label vx /\
      forall sg, In sg sgs -> dget str_eqb sg (v_tokens vx') = dget str_eqb sg (v_tokens vx);
  gr_new : forall v vx, dget Nat.eqb v (g_verts g') = Some vx -> ~ In v (vertices g) ->
    forall sg, In sg sgs -> dget str_eqb sg (v_tokens vx) = None;
  gr_edge : forall u v, edge g u v -> edge g' u v
}.

(** The tokens [t] of the witness [sg] and [t'] of [sg'] stand on the same vertex. *)
Definition aligned_in (g : graph) (sg : str) (t : token) (sg' : str) (t' : token) : Prop :=
  exists v vx ts ts', dget Nat.eqb v (g_verts g) = Some vx /\
    dget str_eqb sg (v_tokens vx) = Some ts /\ In t ts /\ dget str_eqb sg' (v_tokens vx) = Some ts' /\ In t' ts'.

(** The tokens stand in one column of the table. *)
Definition same_column (t : table) (sg : str) (x : str) (sg' : str) (x' : str) : Prop :=
  exists col ts ts' k k', In col (t_columns t) /\ dget str_eqb sg (c_cells col) = Some ts /\ In k ts /\ tk_str k = x /\
    dget str_eqb sg' (c_cells col) = Some ts' /\ In k' ts' /\ tk_str k' = x'.
