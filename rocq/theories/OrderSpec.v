(** Specification vocabulary: the order of the entries of a dictionary does not matter (C58). *)
From Verif Require Import Py TokenModel SuffixModel IndexModel GraphModel AlignModel TableModel ExportModel CollateModel
  JsonModel JsonSpec ParamSpec.
Open Scope list_scope.

(** No dictionary inside the value has two entries with the same key.  (Every Python value.) *)
Inductive proper : jval -> Prop :=
| pr_null : proper JNull
| pr_bool : forall b, proper (JBool b)
| pr_num : forall z, proper (JNum z)
| pr_str : forall s, proper (JStr s)
| pr_arr : forall l, Forall proper l -> proper (JArr l)
| pr_obj : forall d, NoDup (map fst d) -> Forall (fun m => proper (snd m)) d -> proper (JObj d).

(** A properties filter that looks at the entries of dictionaries, not at their order. *)
Definition order_blind (filt : option props_filter) : Prop :=
  forall f, filt = Some f -> forall a a' b b', same_value (JObj a) (JObj a') -> same_value (JObj b) (JObj b') ->
    proper (JObj a) -> proper (JObj b) -> f a b = f a' b'.

(** Written as JSON (keys are sorted) the two values are the same text. *)
Definition same_written (v v' : jval) : Prop := forall indent level, json_dumps indent level v = json_dumps indent level v'.
Definition same_data (a b : token) : Prop := tk_pos a = tk_pos b /\ tk_str a = tk_str b /\ same_written (JObj (tk_data a)) (JObj (tk_data b)).

Definition same_cell_data (x y : cell) : Prop :=
  match x, y with None, None => True | Some l, Some l' => Forall2 same_data l l' | _, _ => False end.
Definition same_table (t t' : table) : Prop :=
  Forall2 (fun c c' => c_variant c = c_variant c' /\
     Forall2 (fun e e' => fst e = fst e' /\ Forall2 same_data (snd e) (snd e')) (c_cells c) (c_cells c')) (t_columns t) (t_columns t') /\
  Forall2 (fun r r' => r_header r = r_header r' /\ Forall2 same_cell_data (r_cells r) (r_cells r')) (t_rows t) (t_rows t').
Definition same_graph (g g' : graph) : Prop :=
  g_edges g = g_edges g' /\ g_near g = g_near g' /\
  Forall2 (fun x x' => fst x = fst x' /\ v_label (snd x) = v_label (snd x') /\
     Forall2 (fun e e' => fst e = fst e' /\ Forall2 same_data (snd e) (snd e')) (v_tokens (snd x)) (v_tokens (snd x'))) (g_verts g) (g_verts g').

(** Two answers of collate the user cannot tell apart but by the order of the entries of the token
    dictionaries: texts are equal, JSON outputs have the same text, tables and graphs hold the same. *)
Definition same_output (x y : output) : Prop :=
  match x, y with
  | OSvg s g, OSvg s' g' => s = s' /\ same_graph g g'
  | OGraph g, OGraph g' => same_graph g g'
  | OJson v, OJson v' => same_written v v'
  | OHtml t, OHtml t' => same_table t t'
  | OHtml2 t, OHtml2 t' => same_table t t'
  | OTable t, OTable t' => same_table t t'
  | OXml s, OXml s' => s = s'
  | OTei s, OTei s' => s = s'
  | OCsv s, OCsv s' => s = s'
  | _, _ => False
  end.
Definition same_result (r r' : res output) : Prop :=
  match r, r' with Ok x, Ok y => same_output x y | Raise e, Raise e' => e = e' | _, _ => False end.
