(** Specification of near matching (C47): which vertices move, and where to. *)
From Verif Require Import Py TokenModel SuffixModel IndexModel GraphModel GraphSpec.
From Coq Require Import QArith.
Open Scope list_scope.
Open Scope nat_scope.

(** The rank (column) of a vertex. *)
Definition rank_at (r : ranking) (v : vid) (k : nat) : Prop := dget Nat.eqb v (by_vertex r) = Some k.

(** [src] can be moved towards [v]: there is at least one rank between them, and no vertex
    that follows [src] is on the very next rank. *)
Definition has_room (g : graph) (r : ranking) (src v : vid) (ks kv : nat) : Prop :=
  rank_at r src ks /\ rank_at r v kv /\ S ks < kv /\ forall x, edge g src x -> ~ rank_at r x (S ks).

(** The other vertices on the ranks from that of [src] to the one before [v], by rank. *)
Definition candidates (r : ranking) (src : vid) (ks kv : nat) (l : list vid) : Prop :=
  exists ls, Forall2 (fun k vs => dget Nat.eqb k (by_rank r) = Some vs) (seq ks (kv - ks)) ls /\
             l = filter (fun v => negb (v =? src)) (concat ls).

(** How a vertex is compared: its label, or the text "no label". *)
Definition shown (vx : vertex) (s : str) : Prop := (v_label vx <> [] /\ s = v_label vx) \/ (v_label vx = [] /\ s = lit "no label").
Definition similarity (ratio : str -> str -> Q) (g : graph) (a b : vid) (q : Q) : Prop :=
  exists ax bx sa sb, dget Nat.eqb a (g_verts g) = Some ax /\ dget Nat.eqb b (g_verts g) = Some bx /\
    shown ax sa /\ shown bx sb /\ q = ratio sa sb.

(** [w] is the first of the most similar candidates. *)
Definition most_similar (ratio : str -> str -> Q) (g : graph) (src : vid) (l : list vid) (w : vid) (q : Q) : Prop :=
  exists l1 l2, l = l1 ++ w :: l2 /\ similarity ratio g src w q /\
    (forall x qx, In x l1 -> similarity ratio g src x qx -> (qx < q)%Q) /\
    (forall x qx, In x l2 -> similarity ratio g src x qx -> (qx <= q)%Q).

(** The edges are considered one after the other; after every move the ranks are computed
    again from the graph, which remembers the moves as near edges. *)
Inductive near_run (topo : graph -> res (list vid)) (ratio : str -> str -> Q) :
  list (vid * vid) -> graph * ranking -> graph * ranking -> Prop :=
| run_end : forall st, near_run topo ratio [] st st
| run_stay : forall src v es g r st, (forall ks kv, ~ has_room g r src v ks kv) ->
    near_run topo ratio es (g, r) st -> near_run topo ratio ((src, v) :: es) (g, r) st
| run_move : forall src v es g r st ks kv l w q r', has_room g r src v ks kv -> candidates r src ks kv l ->
    most_similar ratio g src l w q -> ranking_of topo (connect_near g w src q) = Ok r' ->
    near_run topo ratio es (connect_near g w src q, r') st -> near_run topo ratio ((src, v) :: es) (g, r) st.

(** The incoming edges of the vertices, in that order. *)
Definition edges_into (g : graph) (vs : list vid) : list (vid * vid) := flat_map (fun v => filter (fun e => snd e =? v) (edge_pairs g)) vs.
