(** Specification vocabulary for variant graphs: paths of witnesses, edges, ranks. *)
From Verif Require Import Py TokenModel SuffixModel IndexModel GraphModel.
From Coq Require Import Relations Permutation.

(** A witness path: the siglum and the steps, each a vertex with the tokens of that
    witness standing on it. *)
Definition wpath := (str * list (vid * list token))%type.

(** Consecutive pairs of a list. *)
Definition pairs {A} (l : list A) : list (A * A) := combine l (tl l).

(** The vertices a witness runs through, from start to end. *)
Definition chain (p : wpath) : list vid := v_start :: map fst (snd p) ++ [v_end].

(** The sigla of the witnesses that use an edge, in the order of the witnesses. *)
Definition users (W : list wpath) (e : vid * vid) : list str :=
  map fst (filter (fun p => existsb (edge_eqb e) (pairs (chain p))) W).

(** The tokens the witnesses put on a vertex, in the order of the witnesses. *)
Definition tokens_on (W : list wpath) (v : vid) : list (str * list token) :=
  flat_map (fun p => match dget Nat.eqb v (snd p) with
                     | Some ts => [(fst p, ts)]
                     | None => []
                     end) W.

(** Edge relation; a graph is acyclic when no vertex reaches itself. *)
Definition edge (g : graph) (u v : vid) : Prop := In (u, v) (edge_pairs g).
Definition acyclic (g : graph) : Prop := forall v, ~ clos_trans vid (edge g) v v.

(** [g] is the variant graph of the witness paths [W]. *)
Record graph_of (g : graph) (W : list wpath) : Prop := {
  gi_sigla : NoDup (map fst W);
  gi_siglum : ~ In [] (map fst W);
  gi_verts : NoDup (vertices g);
  gi_bound : forall v, In v (vertices g) -> v < g_next g;
  gi_start : dget Nat.eqb v_start (g_verts g) = Some {| v_label := lit "start"; v_tokens := [] |};
  gi_end : dget Nat.eqb v_end (g_verts g) = Some {| v_label := lit "end"; v_tokens := [] |};
  gi_simple : forall p, In p W -> NoDup (chain p);
  gi_on : forall p v ts, In p W -> In (v, ts) (snd p) -> In v (vertices g) /\ ts <> [];
  gi_cover : forall v, In v (vertices g) -> v = v_start \/ v = v_end \/
               exists p ts, In p W /\ In (v, ts) (snd p);
  gi_tokens : forall v vx, dget Nat.eqb v (g_verts g) = Some vx -> v_tokens vx = tokens_on W v;
  gi_edges_nodup : NoDup (edge_pairs g);
  gi_edges : forall e, dget edge_eqb e (g_edges g) =
               match users W e with [] => None | l => Some (str_join (lit ", ") l) end;
  gi_acyclic : acyclic g;
  gi_near : g_near g = []
}.

(** [u] comes before [v] in [l]. *)
Definition before {A} (u v : A) (l : list A) : Prop :=
  exists l1 l2 l3, l = l1 ++ u :: l2 ++ v :: l3.

(** What the theorems assume about networkx's topological_sort: on a graph without
    cycles it returns the nodes in an order compatible with the edges. *)
Definition topo_ok (topo : graph -> res (list vid)) : Prop :=
  forall g, NoDup (vertices g) ->
    (forall u v, edge g u v -> In u (vertices g) /\ In v (vertices g)) ->
    NoDup (edge_pairs g) ->
    acyclic g ->
    exists l, topo g = Ok l /\ Permutation l (vertices g) /\
              forall u v, edge g u v -> before u v l.

(** Length of paths in the graph. *)
Inductive path_len (g : graph) : nat -> vid -> vid -> Prop :=
| pl_nil : forall v, path_len g 0 v v
| pl_snoc : forall n u v w, path_len g n u v -> edge g v w -> path_len g (S n) u w.

(** [rk] assigns to every vertex the length of the longest path from start to it. *)
Definition longest_from_start (g : graph) (rk : vid -> nat) : Prop :=
  forall v, In v (vertices g) ->
    path_len g (rk v) v_start v /\ forall n, path_len g n v_start v -> n <= rk v.

(** Two vertices that segmentation may join: the first has no other successor, the
    second no other predecessor; start and end are never joined. *)
Definition joinable (g : graph) (a b : vid) : Prop :=
  a <> v_start /\ b <> v_end /\ (forall w, edge g a w <-> w = b) /\ (forall u, edge g u b <-> u = a).

Definition label_of (g : graph) (v : vid) : str :=
  match dget Nat.eqb v (g_verts g) with Some vx => v_label vx | None => [] end.

(** [g] (with witness paths [W]) is the graph [g0] (with witness paths [W0], one token
    per step) in which the chains [part v] of joinable vertices have become single
    vertices. *)
Definition unfold_path (part : vid -> list vid) (s : list (vid * list token)) : list (vid * list token) :=
  flat_map (fun '(v, ts) => combine (part v) (map (fun t => [t]) ts)) s.

Record joined (cc : cclass) (g0 : graph) (W0 : list wpath) (g : graph) (W : list wpath)
  (part : vid -> list vid) : Prop := {
  jo_graph : graph_of g W;
  jo_paths : Forall2 (fun p0 p => fst p0 = fst p /\ snd p0 = unfold_path part (snd p) /\
                        forall v ts, In (v, ts) (snd p) -> length ts = length (part v)) W0 W;
  jo_verts : forall v, In v (vertices g) -> In v (vertices g0);
  jo_head : forall v, In v (vertices g) -> exists r, part v = v :: r;
  jo_links : forall v a b, In v (vertices g) -> In (a, b) (pairs (part v)) -> joinable g0 a b;
  jo_edges : forall u w, In u (vertices g) -> (edge g u w <-> edge g0 (last (part u) u) w);
  jo_preds : forall u0 w, In w (vertices g) -> edge g0 u0 w ->
               exists u, In u (vertices g) /\ last (part u) u = u0;
  jo_ends : part v_start = [v_start] /\ part v_end = [v_end];
  jo_label : forall v, In v (vertices g) ->
    label_of g v = fold_left (join_labels cc) (map (label_of g0) (tl (part v))) (label_of g0 v)
}.

(** The graph without its near edges (which only near matching adds). *)
Definition without_near (g : graph) : graph :=
  {| g_verts := g_verts g; g_edges := g_edges g; g_near := []; g_next := g_next g |}.

(** [printed cc ws l]: [l] is the text of the readings [ws], each further reading after a
    blank unless it begins with a character that is not a word character. *)
Inductive printed (cc : cclass) : list str -> str -> Prop :=
| printed_one : forall w, printed cc [w] w
| printed_glued : forall ws l c r, printed cc ws l -> isw cc c = false -> printed cc (ws ++ [c :: r]) (l ++ c :: r)
| printed_spaced : forall ws l w, printed cc ws l -> (forall c r, w = c :: r -> isw cc c = true) ->
    printed cc (ws ++ [w]) (l ++ 32%N :: w).
