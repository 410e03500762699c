(** Specification vocabulary: witnesses with other names (C62). *)
From Verif Require Import Py TokenModel SuffixModel IndexModel GraphModel AlignModel TableModel CollateModel ParamSpec.
Open Scope list_scope.

(** The topological sort looks at the nodes and at the end points of the edges only. *)
Definition by_shape (topo : graph -> res (list vid)) : Prop :=
  forall g g', vertices g' = vertices g -> edge_pairs g' = edge_pairs g -> topo g' = topo g.

(** The same witnesses with the same tokens in the same order under other names: witnesses with
    different names keep different names, those with one name keep one name, and no name becomes
    empty or stops being empty. *)
Definition renamed (c c' : collation) : Prop :=
  Forall2 (fun w w' => w_toks w' = w_toks w /\ (w_sigil w' = [] <-> w_sigil w = [])) c c' /\
  forall i j a b a' b', nth_error c i = Some a -> nth_error c j = Some b ->
    nth_error c' i = Some a' -> nth_error c' j = Some b' -> (w_sigil a' = w_sigil b' <-> w_sigil a = w_sigil b).

(** The tokens stand at the same places of the witnesses, and have the same strings and the same
    data as given by the user. *)
Definition same_tokens (l l' : list token) : Prop :=
  map tk_pos l' = map tk_pos l /\ map tk_str l' = map tk_str l /\
  map (fun t => user_entries (tk_data t)) l' = map (fun t => user_entries (tk_data t)) l.

(** The same table but for the names of the rows. *)
Definition renamed_table (t t' : table) : Prop :=
  map c_variant (t_columns t') = map c_variant (t_columns t) /\
  Forall2 (fun r r' => Forall2 (fun x y => match x, y with None, None => True | Some l, Some l' => same_tokens l l' | _, _ => False end)
                               (r_cells r) (r_cells r')) (t_rows t) (t_rows t').

(** The same graph but for the names of the witnesses: the same vertices with the same labels, the
    same edges, near matches with the same weights, and on each vertex as many witnesses, in the same
    order, with the same tokens. *)
Definition renamed_graph (c c' : collation) (g g' : graph) : Prop :=
  map fst (g_edges g') = map fst (g_edges g) /\ g_near g' = g_near g /\
  Forall2 (fun x x' => fst x' = fst x /\ v_label (snd x') = v_label (snd x) /\
     Forall2 (fun e e' => (forall i w w', nth_error c i = Some w -> nth_error c' i = Some w' -> fst e = w_sigil w -> fst e' = w_sigil w') /\
                          same_tokens (snd e) (snd e'))
             (v_tokens (snd x)) (v_tokens (snd x'))) (g_verts g) (g_verts g').
