(** Model of the look-ups offered by VariantGraph (collatex/core_classes.py:264-291). *)
From Verif Require Import Py TokenModel IndexModel GraphModel.
Open Scope list_scope.
Open Scope nat_scope.

(** core_classes.py:270-272  edge_between (DiGraph.has_edge). *)
Definition edge_between (g : graph) (u v : vid) : bool := dmem edge_eqb (u, v) (g_edges g).

(** core_classes.py:286-291  vertexWith: the first node, in insertion order, with this label. *)
Definition vertex_with (g : graph) (content : str) : res vid :=
  match find (fun x => str_eqb (v_label (snd x)) content) (g_verts g) with
  | Some x => Ok (fst x)
  | None => Raise VertexNotFound
  end.
