(** Specification vocabulary: a witness without a name (C42). *)
From Verif Require Import Py TokenModel SuffixModel IndexModel GraphModel AlignModel TableModel CollateModel RenameSpec.
Open Scope list_scope.

(** The witness under another name. *)
Definition under (s : str) (w : witness) : witness := {| w_sigil := s; w_toks := w_toks w |}.

(** Both cells are empty, or both hold the same tokens. *)
Definition same_cell (x y : option (list token)) : Prop :=
  match x, y with None, None => True | Some l, Some l' => same_tokens l l' | _, _ => False end.

(** [g] is the graph of a collation in which a witness is called [s], [g'] that of the collation
    in which the same witness has the empty name.  Vertices and edges are the same, and so are the
    tokens of all other witnesses; but the tokens of the unnamed witness are kept only on vertices
    that carry a token of an earlier witness. *)
Definition unnamed_graph (s : str) (earlier : list str) (g g' : graph) : Prop :=
  map fst (g_edges g') = map fst (g_edges g) /\ g_near g' = g_near g /\
  Forall2 (fun x x' => fst x' = fst x /\ v_label (snd x') = v_label (snd x) /\
     (forall k, k <> s -> k <> [] -> same_cell (dget str_eqb k (v_tokens (snd x))) (dget str_eqb k (v_tokens (snd x')))) /\
     ((exists u, In u earlier /\ dget str_eqb u (v_tokens (snd x)) <> None) ->
        same_cell (dget str_eqb s (v_tokens (snd x))) (dget str_eqb [] (v_tokens (snd x')))) /\
     ((forall u, In u earlier -> dget str_eqb u (v_tokens (snd x)) = None) -> dget str_eqb [] (v_tokens (snd x')) = None))
    (g_verts g) (g_verts g').

(** The same for tables, where the unnamed witness has the row [k]: its tokens stand where they stood,
    and only beside the same reading of an earlier witness; the others are not shown. *)
Definition unnamed_table (k : nat) (t t' : table) : Prop :=
  length (t_columns t') = length (t_columns t) /\ length (t_rows t') = length (t_rows t) /\
  forall j r r', nth_error (t_rows t) j = Some r -> nth_error (t_rows t') j = Some r' ->
    length (r_cells r') = length (r_cells r) /\
    forall i x x', nth_error (r_cells r) i = Some x -> nth_error (r_cells r') i = Some x' ->
      if Nat.eqb j k then
        x' = None \/
        same_cell x x' /\ exists l j' r2 l2, x = Some l /\ j' < k /\ nth_error (t_rows t) j' = Some r2 /\
                          nth_error (r_cells r2) i = Some (Some l2) /\ map tk_str l2 = map tk_str l
      else same_cell x x'.
