(** Model of VariantGraph, CollationAlgorithm.merge, join and
    VariantGraphRanking (collatex/core_classes.py). *)
From Verif Require Import Py TokenModel SuffixModel IndexModel.
From Coq Require Import QArith.
Open Scope list_scope.
Open Scope nat_scope.

(** Vertices are Python objects compared by identity; here they are numbers. *)
Notation vid := nat (only parsing).
(** core_classes.py:228: the vertex start. *)
Definition v_start : vid := 0.
(** core_classes.py:229: the vertex end. *)
Definition v_end : vid := 1.

(** core_classes.py:205-214  VariantGraphVertex. *)
Record vertex := { v_label : str; v_tokens : list (str * list token) }.

(** core_classes.py:223-229  VariantGraph: nx.DiGraph nodes and edges in insertion
    order (out_edges / in_edges of one node keep that order), edge data 'label';
    near_graph edges with their weight.  [g_next] is the next fresh vertex. *)
Record graph := {
  g_verts : list (vid * vertex);
  g_edges : list (vid * vid * str);
  g_near : list (vid * vid * Q);
  g_next : vid
}.

(** core_classes.py:244: the edges of a DiGraph are known by their two ends. *)
Definition edge_eqb (a b : vid * vid) : bool := (fst a =? fst b) && (snd a =? snd b).

(** core_classes.py:264-265 vertices. *)
Definition vertices (g : graph) : list vid := map fst (g_verts g).
(** core_classes.py:267-268 edges. *)
Definition edge_pairs (g : graph) : list (vid * vid) := map fst (g_edges g).

(** core_classes.py:274-281  in_edges / out_edges. *)
Definition out_edges (g : graph) (u : vid) : list (vid * vid * str) :=
  filter (fun e => fst (fst e) =? u) (g_edges g).
(** core_classes.py:274-275 in_edges. *)
Definition in_edges (g : graph) (v : vid) : list (vid * vid * str) :=
  filter (fun e => snd (fst e) =? v) (g_edges g).
(** core_classes.py:277-278 in_near_edges. *)
Definition in_near_edges (g : graph) (v : vid) : list (vid * vid * Q) :=
  filter (fun e => snd (fst e) =? v) (g_near g).

(** core_classes.py:309: the vertex object itself, by its number. *)
Definition get_vertex (g : graph) (v : vid) : res vertex := dgetE Nat.eqb v (g_verts g).

(** core_classes.py:206-208  VariantGraphVertex.__init__ for a token vertex:
    an empty (falsy) sigil gives an empty tokens dictionary. *)
Definition new_vertex (t : token) (sigil : str) : vertex :=
  {| v_label := tk_str t;
     v_tokens := match sigil with [] => [] | _ => [(sigil, [t])] end |}.

(** core_classes.py:231-236  add_vertex. *)
Definition add_vertex (g : graph) (t : token) (sigil : str) : graph * vid :=
  let v := g_next g in
  ({| g_verts := g_verts g ++ [(v, new_vertex t sigil)]; g_edges := g_edges g;
      g_near := g_near g; g_next := S v |}, v).

(** core_classes.py:224-229  VariantGraph.__init__ *)
Definition empty_graph : graph :=
  {| g_verts := [(v_start, {| v_label := lit "start"; v_tokens := [] |});
                 (v_end, {| v_label := lit "end"; v_tokens := [] |})];
     g_edges := []; g_near := []; g_next := 2 |}.

(** core_classes.py:210-214  add_token on a vertex. *)
Definition vertex_add_token (vx : vertex) (sigil : str) (t : token) : vertex :=
  {| v_label := v_label vx;
     v_tokens := match dget str_eqb sigil (v_tokens vx) with
                 | Some l => dset str_eqb sigil (l ++ [t]) (v_tokens vx)
                 | None => dset str_eqb sigil [t] (v_tokens vx)
                 end |}.

(** core_classes.py:210-214: a change of a vertex object is seen by the graph. *)
Definition update_vertex (g : graph) (v : vid) (vx : vertex) : graph :=
  {| g_verts := dset Nat.eqb v vx (g_verts g); g_edges := g_edges g;
     g_near := g_near g; g_next := g_next g |}.

(** core_classes.py:309 vertex.add_token. *)
Definition graph_add_token (g : graph) (v : vid) (sigil : str) (t : token) : res graph :=
  vx <- get_vertex g v ;; Ok (update_vertex g v (vertex_add_token vx sigil t)).

(** core_classes.py:238-247  connect. *)
Definition connect (g : graph) (u v : vid) (lbl : str) : graph :=
  {| g_verts := g_verts g;
     g_edges := match dget edge_eqb (u, v) (g_edges g) with
                | Some l => dset edge_eqb (u, v) (l ++ lit ", " ++ lbl) (g_edges g)
                | None => g_edges g ++ [((u, v), lbl)]
                end;
     g_near := g_near g; g_next := g_next g |}.

(** core_classes.py:249-256  connect_near (add_edge overwrites the weight). *)
Definition connect_near (g : graph) (u v : vid) (w : Q) : graph :=
  {| g_verts := g_verts g; g_edges := g_edges g;
     g_near := dset edge_eqb (u, v) w (g_near g); g_next := g_next g |}.

(** core_classes.py:258-262  remove_edge, remove_node (networkx also drops the
    incident edges of a removed node; NetworkXError, a missing edge or node, is
    represented by KeyError). *)
Definition remove_edge (g : graph) (u v : vid) : res graph :=
  if dmem edge_eqb (u, v) (g_edges g) then
    Ok {| g_verts := g_verts g; g_edges := ddel edge_eqb (u, v) (g_edges g);
          g_near := g_near g; g_next := g_next g |}
  else Raise KeyError.
(** core_classes.py:261-262 remove_node. *)
Definition remove_node (g : graph) (v : vid) : res graph :=
  if dmem Nat.eqb v (g_verts g) then
    Ok {| g_verts := ddel Nat.eqb v (g_verts g);
          g_edges := filter (fun e => negb (fst (fst e) =? v) && negb (snd (fst e) =? v)) (g_edges g);
          g_near := g_near g; g_next := g_next g |}
  else Raise KeyError.

(** core_classes.py:295-314  CollationAlgorithm.merge.  [aligned] maps a token
    (its position) to a vertex; the result includes the newly generated vertices
    (token position -> vertex). *)
Fixpoint merge_tokens (g : graph) (sigil : str) (ts : list token)
    (aligned : list (nat * vid)) (last : vid) (t2v : list (nat * vid))
  : res (graph * vid * list (nat * vid)) :=
  match ts with
  | [] => Ok (g, last, t2v)
  | t :: ts' =>
    match dget Nat.eqb (tk_pos t) aligned with
    | None =>
      let '(g1, v) := add_vertex g t sigil in
      merge_tokens (connect g1 last v sigil) sigil ts' aligned v
                   (dset Nat.eqb (tk_pos t) v t2v)
    | Some v =>
      g1 <- graph_add_token g v sigil t ;;
      merge_tokens (connect g1 last v sigil) sigil ts' aligned v t2v
    end
  end.

(** core_classes.py:296-314, the whole of it. *)
Definition merge (g : graph) (sigil : str) (ts : list token) (aligned : list (nat * vid))
  : res (graph * list (nat * vid)) :=
  '(g1, last, t2v) <- merge_tokens g sigil ts aligned v_start [] ;;
  Ok (connect g1 last v_end sigil, t2v).

(** core_classes.py:356-366  join_vertex_and_join_candidate.  [re.match(r'^\W', l)]
    holds when the label is non-empty and its first character is not a word
    character. *)
Definition starts_nonword (cc : cclass) (l : str) : bool :=
  match l with [] => false | c :: _ => negb (isw cc c) end.

(** core_classes.py:360-363: the new label. *)
Definition join_labels (cc : cclass) (l cand : str) : str :=
  if starts_nonword cc cand then l ++ cand else l ++ lit " " ++ cand.

(** core_classes.py:356-366: label and tokens. *)
Definition join_vertices (cc : cclass) (g : graph) (cand v : vid) : res graph :=
  vx <- get_vertex g v ;;
  cx <- get_vertex g cand ;;
  vx' <- foldM (fun vx '(sg, ts) => t <- aget ts 0 ;; Ok (vertex_add_token vx sg t))
               (v_tokens cx)
               {| v_label := join_labels cc (v_label vx) (v_label cx);
                  v_tokens := v_tokens vx |} ;;
  Ok (update_vertex g v vx').

(** core_classes.py:342-346: move the out edges of the candidate, drop it. *)
Definition absorb (cc : cclass) (g : graph) (cand v : vid) : res graph :=
  g <- join_vertices cc g cand v ;;
  g <- foldM (fun g e => g' <- remove_edge g cand (snd (fst e)) ;;
                         Ok (connect g' v (snd (fst e)) (snd e)))
             (out_edges g cand) g ;;
  g <- remove_edge g v cand ;;
  remove_node g cand.

(** core_classes.py:328-353  join.  [queue]: appendleft/popleft act on the head.
    out_edges of a vertex that is no longer in the graph is a NetworkXError
    (KeyError here). *)
Fixpoint join_loop (cc : cclass) (fuel : nat) (g : graph) (queue : list vid) (processed : list vid)
  : res graph :=
  match queue with
  | [] => Ok g
  | v :: q =>
    match fuel with
    | 0 => Raise OutOfFuel
    | S f =>
      if negb (dmem Nat.eqb v (g_verts g)) then Raise KeyError else
      let oe := out_edges g v in
      let otherwise :=
        let processed' := v :: processed in
        join_loop cc f g
          (fold_left (fun q e => let nb := snd (fst e) in
                                 if existsb (Nat.eqb nb) processed' then q else nb :: q) oe q)
          processed' in
      match oe with
      | [((_, cand), _)] =>
        if negb (cand =? v_end) && (length (in_edges g cand) =? 1) then
          g' <- absorb cc g cand v ;;
          join_loop cc f g' (v :: q) processed
        else otherwise
      | _ => otherwise
      end
    end
  end.

(** The number of loop iterations allowed by the model (shown sufficient). For the loop of core_classes.py:334-353. *)
Definition join_fuel (g : graph) : nat :=
  S (2 * length (g_verts g) + 2 * length (g_edges g)).

(** core_classes.py:328-353. *)
Definition join (cc : cclass) (g : graph) : res graph :=
  join_loop cc (join_fuel g) g
    (fold_left (fun q e => snd (fst e) :: q) (out_edges g v_start) []) [].

(** core_classes.py:369-409  VariantGraphRanking. *)
Record ranking := { by_vertex : list (vid * nat); by_rank : list (nat * list vid) }.

(** core_classes.py:387-393.  Ranks are [-1 + 1 = 0] without predecessors, else
    1 + the maximal rank of a predecessor: [max] of the successors of the ranks. *)
Definition rank_step (g : graph) (r : ranking) (v : vid) : res ranking :=
  rk <- foldM (fun m e => ru <- dgetE Nat.eqb (fst (fst e)) (by_vertex r) ;;
                          Ok (Nat.max m (S ru)))
              (in_edges g v) 0 ;;
  let old := match dget Nat.eqb rk (by_rank r) with Some l => l | None => [] end in
  Ok {| by_vertex := dset Nat.eqb v rk (by_vertex r);
        by_rank := dset Nat.eqb rk (old ++ [v]) (by_rank r) |}.

(** [list.remove(x)] core_classes.py:406. *)
Fixpoint list_remove (x : nat) (l : list nat) : res (list nat) :=
  match l with
  | [] => Raise ValueError
  | y :: l' => if x =? y then Ok l' else r <- list_remove x l' ;; Ok (y :: r)
  end.

(** core_classes.py:396-408: near edges move their target to the rank of the source. *)
Definition near_step (r : ranking) (e : vid * vid * Q) : res ranking :=
  let '((u, v), _) := e in
  ur <- dgetE Nat.eqb u (by_vertex r) ;;
  vr <- dgetE Nat.eqb v (by_vertex r) ;;
  oldl <- dgetE Nat.eqb vr (by_rank r) ;;
  oldl' <- list_remove v oldl ;;
  let br := dset Nat.eqb vr oldl' (by_rank r) in
  newl <- dgetE Nat.eqb ur br ;;
  Ok {| by_vertex := dset Nat.eqb v ur (by_vertex r);
        by_rank := dset Nat.eqb ur (newl ++ [v]) br |}.

Section Ranking.
  (** networkx.algorithms.dag.topological_sort: an external function. *)
  Variable topo : graph -> res (list vid).

  (** core_classes.py:382-409 VariantGraphRanking.of. *)
  Definition ranking_of (g : graph) : res ranking :=
    order <- topo g ;;
    r <- foldM (rank_step g) order {| by_vertex := []; by_rank := [] |} ;;
    foldM (fun r v => foldM near_step (in_near_edges g v) r) (rev order) r.
End Ranking.

(** networkx 2.x topological_sort (Kahn's algorithm with a LIFO list of
    zero-indegree nodes): one implementation of the external function.
    [indeg] is the in-degree table; a node left over means a cycle. Called at core_classes.py:386, 395. *)
Definition indegrees (g : graph) : list (vid * nat) :=
  map (fun v => (v, length (in_edges g v))) (vertices g).

(** Part of topological_sort (networkx), called at core_classes.py:386: one edge of a node that was given out. *)
Definition kahn_relax (st : list (vid * nat) * list vid) (e : vid * vid * str)
  : list (vid * nat) * list vid :=
  let '(indeg, zero) := st in
  let c := snd (fst e) in
  let d := match dget Nat.eqb c indeg with Some d => d - 1 | None => 0 end in
  (dset Nat.eqb c d indeg, if d =? 0 then c :: zero else zero).

(** Part of topological_sort (networkx), called at core_classes.py:386: its main loop. *)
Fixpoint kahn_loop (fuel : nat) (g : graph) (indeg : list (vid * nat)) (zero out : list vid)
  : list vid :=
  match fuel with
  | 0 => rev out
  | S f =>
    match zero with
    | [] => rev out
    | v :: zero' =>
      let '(indeg', zero'') := fold_left kahn_relax (out_edges g v) (indeg, zero') in
      kahn_loop f g indeg' zero'' (v :: out)
    end
  end.

(** topological_sort (networkx), called at core_classes.py:386. *)
Definition kahn (g : graph) : res (list vid) :=
  let n := length (g_verts g) in
  let zero := rev (filter (fun v => length (in_edges g v) =? 0) (vertices g)) in
  let l := kahn_loop n g (indegrees g) zero [] in
  if length l =? n then Ok l else Raise GraphCycle.
