(** Model of the drawing of the variant graph: collatex/display_module.py:68-121
    display_variant_graph_as_svg.  The graphviz Digraph is the list of the nodes, edges and
    subgraphs given to it, in that order; turning it into an image is external (graphviz). *)
From Verif Require Import Py TokenModel SuffixModel IndexModel GraphModel TableModel ExportModel CollateModel.
From Coq Require Import QArith.
Open Scope list_scope.
Open Scope nat_scope.

(** a.node(id, label=...), a.edge(from, to, [style='dashed',] label=...), a.subgraph(...) with
    rank=same. display_module.py:82, 97. *)
Record dot_node := { dn_id : str; dn_label : str }.
(** display_module.py:103, 110: an edge. *)
Record dot_edge := { de_from : str; de_to : str; de_dashed : bool; de_label : str }.
(** display_module.py:69-119: what is drawn. *)
Record drawing := { dr_nodes : list dot_node; dr_edges : list dot_edge; dr_groups : list (list str) }.

(** display_module.py:91: re.sub(r'>', r'&gt;', re.sub(r'<', r'&lt;', t)) *)
Definition svg_escape (s : str) : str :=
  flat_map (fun c => if N.eqb c 62 then lit "&gt;" else [c])
           (flat_map (fun c => if N.eqb c 60 then lit "&lt;" else [c]) s).

(** display_module.py:88-92: the sigla of each reading (a defaultdict(list)). *)
Definition add_reading (d : list (str * list str)) (x : str * list token) : res (list (str * list str)) :=
  l <- mapM (fun t => s <- token_t t ;; Ok (svg_escape s)) (snd x) ;;
  let key := concat l in
  let old := match dget str_eqb key d with Some sgs => sgs | None => [] end in
  Ok (dset str_eqb key (old ++ [fst x]) d).

(** display_module.py:86-98: the label of a node, with the rank and the readings. *)
Definition svg_row (a b : str) : str :=
  lit "<TR><TD ALIGN='LEFT'>" ++ a ++ lit "</TD><TD ALIGN='LEFT'>" ++ b ++ lit "</TD></TR>".
(** display_module.py:84-97. *)
Definition svg_label (rank : nat) (vx : vertex) : res str :=
  d <- foldM add_reading (v_tokens vx) [] ;;
  Ok (lit "<<TABLE CELLSPACING=" ++ dq ++ lit "0" ++ dq ++ lit ">" ++
      concat (svg_row (lit "<B>" ++ v_label vx ++ lit "</B>") (lit "exact: " ++ str_of_nat rank) ::
              map (fun '(key, sgs) => svg_row (lit "<FONT FACE='Bukyvede'>" ++ key ++ lit "</FONT>") (str_join (lit ", ") sgs))
                  (sort_items d)) ++
      lit "</TABLE>>").
(** display_module.py:80-84 *)
Definition simple_label (vx : vertex) : str := match v_label vx with [] => lit "#" | l => l end.

(** networkx DiGraph.edges(data=True): the nodes in order, each with its successors. display_module.py:100. *)
Definition edges_data (g : graph) : list (vid * vid * str) := flat_map (out_edges g) (vertices g).
(** display_module.py:107: the near edges in the same order. *)
Definition near_edges_data (g : graph) : list (vid * vid * Q) :=
  flat_map (fun u => filter (fun e => fst (fst e) =? u) (g_near g)) (vertices g).

Section Draw.
  Variable topo : graph -> res (list vid).
  (** '{:3.2f}'.format(weight), the rounding of a floating point number: external. *)
  Variable weight_text : Q -> str.

  (** display_module.py:75-98: one node; the state is the counter, the mapping and the nodes. *)
  Definition draw_node (simple : bool) (r : ranking) (st : nat * list (vid * str) * list dot_node) (x : vid * vertex)
    : res (nat * list (vid * str) * list dot_node) :=
    let '(counter, mapping, nodes) := st in
    let id := str_of_nat (S counter) in
    label <- (if simple then Ok (simple_label (snd x))
              else rank <- dgetE Nat.eqb (fst x) (by_vertex r) ;; svg_label rank (snd x)) ;;
    Ok (S counter, dset Nat.eqb (fst x) id mapping, nodes ++ [{| dn_id := id; dn_label := label |}]).

  (** display_module.py:100-111 *)
  Definition draw_edge {A} (dashed : bool) (text : A -> str) (mapping : list (vid * str)) (e : vid * vid * A) : res dot_edge :=
    let '((u, v), x) := e in
    a <- dgetE Nat.eqb u mapping ;;
    b <- dgetE Nat.eqb v mapping ;;
    Ok {| de_from := a; de_to := b; de_dashed := dashed; de_label := text x |}.

  (** display_module.py:68-121 *)
  Definition draw (simple : bool) (g : graph) : res drawing :=
    r <- ranking_of topo g ;;
    '(_, mapping, nodes) <- foldM (draw_node simple r) (g_verts g) (0, [], []) ;;
    es <- mapM (draw_edge false (fun s => s) mapping) (edges_data g) ;;
    ns <- mapM (draw_edge true weight_text mapping) (near_edges_data g) ;;
    groups <- mapM (fun kv => mapM (fun v => dgetE Nat.eqb v mapping) (snd kv)) (by_rank r) ;;
    Ok {| dr_nodes := nodes; dr_edges := es ++ ns; dr_groups := groups |}.

  (** core_functions.py:64-65: collate with output="svg" or "svg_simple", up to the drawing. *)
  Definition collate_drawing (cc : cclass) (ratio : str -> str -> Q) (c : collation) (o : options) : res drawing :=
    x <- collate cc topo ratio c o ;;
    match x with OSvg simple g => draw simple g | _ => Raise UnknownOutput end.
End Draw.
