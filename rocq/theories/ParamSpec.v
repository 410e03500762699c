(** Specification vocabulary: what the alignment may depend on (C57, C58). *)
From Verif Require Import Py TokenModel SuffixModel IndexModel GraphModel AlignModel TableModel CollateModel.
Open Scope list_scope.

(** The topological sort looks at the nodes and edges of the graph only. *)
Definition structural (topo : graph -> res (list vid)) : Prop :=
  forall g g', vertices g' = vertices g -> g_edges g' = g_edges g -> topo g' = topo g.

(** Two collations with the same sigla and the same token strings (the n entry of a token, or the t
    entry when there is no n), in the same order.  All other token data may differ. *)
Definition same_texts (c c' : collation) : Prop :=
  Forall2 (fun w w' => w_sigil w' = w_sigil w /\ map t0_str (w_toks w') = map t0_str (w_toks w)) c c'.

(** The tokens of the two collations that stand at the same place. *)
Definition counterparts (c c' : collation) : list (tok0 * tok0) := combine (flat_map w_toks c) (flat_map w_toks c').

(** Token data as the user gave them: without the two entries that collate writes. *)
Definition user_entries (d : jdict) : jdict := ddel str_eqb (lit "_token_array_position") (ddel str_eqb (lit "_sigil") d).

(** A properties filter, if there is one, answers the same for the tokens of both. *)
Definition same_answers (filt : option props_filter) (c c' : collation) : Prop :=
  forall f, filt = Some f -> forall a a' b b', In (a, a') (counterparts c c') -> In (b, b') (counterparts c c') ->
    f (user_entries (t0_data a')) (user_entries (t0_data b')) = f (user_entries (t0_data a)) (user_entries (t0_data b)).

(** Two tables with the same sigla, the same columns, the same status of the columns, and in every
    cell the tokens standing at the same places of the witnesses. *)
Definition same_cell (x y : cell) : Prop :=
  match x, y with
  | None, None => True
  | Some l, Some l' => map tk_pos l' = map tk_pos l /\ map tk_str l' = map tk_str l
  | _, _ => False
  end.
Definition same_alignment (t t' : table) : Prop :=
  map c_variant (t_columns t') = map c_variant (t_columns t) /\
  Forall2 (fun r r' => r_header r' = r_header r /\ Forall2 same_cell (r_cells r) (r_cells r')) (t_rows t) (t_rows t').

(** Two graphs with the same vertices, labels, edges and near matches, whose vertices hold the
    tokens standing at the same places. *)
Definition same_drawing (g g' : graph) : Prop :=
  g_edges g' = g_edges g /\ g_near g' = g_near g /\
  Forall2 (fun x x' => fst x' = fst x /\ v_label (snd x') = v_label (snd x) /\
     Forall2 (fun e e' => fst e' = fst e /\ map tk_pos (snd e') = map tk_pos (snd e) /\ map tk_str (snd e') = map tk_str (snd e))
             (v_tokens (snd x)) (v_tokens (snd x'))) (g_verts g) (g_verts g').
