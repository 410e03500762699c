(** Property C52: the drawing of the variant graph (output="svg" and "svg_simple"). *)
From Verif Require Import Py TokenModel SuffixModel IndexModel GraphModel AlignModel TableModel NearModel ExportModel
  CollateModel Lib GraphSpec TableSpec CollateSpec ExportSpec NearSpec Samples TopoProof ResultProof OutputProof NearProof DrawModel DrawSpec DrawProof.
From Coq Require Import Permutation QArith.
Open Scope list_scope.
Open Scope nat_scope.

(** ** C52: the drawing shows the graph that output="graph" returns: a node for every vertex, an
    edge for every edge, a dashed edge for every near match, and one group per rank. *)
Theorem C52_drawing : forall cc topo ratio weight_text c o d, topo_ok topo -> good_sigla c ->
  collate_drawing topo weight_text cc ratio c o = Ok d ->
  exists (simple : bool) g r name, o_output o = (if simple then lit "svg_simple" else lit "svg") /\
    collate cc topo ratio c (set_output o (lit "graph")) = Ok (OGraph g) /\ ranking_of topo g = Ok r /\
    shows weight_text simple g r name d.
Proof.
  intros cc topo ratio weight_text c o d TO G H. destruct (drawing_shows cc topo ratio weight_text TO c o d G H) as [simple [g [r [name [W [rk [m [l [H1 [H2 [R [S _]]]]]]]]]]]].
  exists simple, g, r, name. split; [assumption|]. split; [|auto]. unfold collate. rewrite collate_graph_output, H1. reflexivity.
Qed.
Print Assumptions C52_drawing.

(** Every witness can be read from the drawing: from the node "start" along edges labelled with
    its siglum to the node "end", through nodes that list its siglum beside its text. *)
Theorem C52_witness : forall cc topo ratio weight_text c o d w, topo_ok topo -> good_sigla c -> o_output o = lit "svg" ->
  collate_drawing topo weight_text cc ratio c o = Ok d -> In w c ->
  exists a ns b readings texts, incl (a :: ns ++ [b]) (dr_nodes d) /\
    (exists k, dn_label a = node_label (lit "start") k []) /\ (exists k, dn_label b = node_label (lit "end") k []) /\
    (forall x y, In (x, y) (pairs (a :: ns ++ [b])) -> exists sgs, In (w_sigil w) sgs /\
       In {| de_from := dn_id x; de_to := dn_id y; de_dashed := false; de_label := str_join (lit ", ") sgs |} (dr_edges d)) /\
    Forall2 (fun n t => exists heading k lines sgs, dn_label n = node_label heading k lines /\ In (t, sgs) lines /\ In (w_sigil w) sgs) ns readings /\
    Forall2 (fun t0 s => dget str_eqb (lit "t") (t0_data t0) = Some (JStr s)) (w_toks w) texts /\ concat readings = without_tags (concat texts).
Proof. intros cc topo ratio weight_text c o d w TO G HO H Hw. apply (drawing_witness cc topo ratio weight_text TO c o d w G HO H Hw). Qed.
Print Assumptions C52_witness.

(** The groups are the columns of the table the same call returns with output="table", between
    the groups of start and end; also with near matching. *)
Theorem C52_columns : forall cc topo ratio weight_text c o d t, topo_ok topo -> good_sigla c -> o_output o = lit "svg" ->
  collate_drawing topo weight_text cc ratio c o = Ok d ->
  collate cc topo ratio c (set_output o (lit "table")) = Ok (OTable t) ->
  length (dr_groups d) = S (S (length (t_columns t))) /\ Permutation (concat (dr_groups d)) (map dn_id (dr_nodes d)) /\ NoDup (map dn_id (dr_nodes d)) /\
  forall i col sg ts, nth_error (t_columns t) i = Some col -> In (sg, ts) (c_cells col) ->
    exists grp n heading lines sgs s, nth_error (dr_groups d) (S i) = Some grp /\ In n (dr_nodes d) /\ In (dn_id n) grp /\
      dn_label n = node_label heading (S i) lines /\ In (without_tags s, sgs) lines /\ In sg sgs /\ text_of ts s.
Proof. intros cc topo ratio weight_text c o d t TO G HO H HT. apply (drawing_columns cc topo ratio weight_text TO c o d t G HO H HT). Qed.
Print Assumptions C52_columns.

(** No exception: "svg_simple" for all tokens, "svg" for tokens that have a text. *)
Theorem C52_total : forall cc topo ratio weight_text c o, topo_ok topo -> c <> [] -> good_sigla c -> no_empty_witness c ->
  ~ marker_clash (o_filter o) c -> o_astar o = false -> o_transp o = false -> (o_near o = true -> o_segmentation o = false) ->
  o_output o = lit "svg_simple" \/ (o_output o = lit "svg" /\ has_texts c) ->
  exists d, collate_drawing topo weight_text cc ratio c o = Ok d.
Proof.
  intros cc topo ratio weight_text c o TO N G NE NM O1 O2 O3 HO. destruct (graph_total_all cc topo ratio TO c o N G NE NM O1 O2 O3) as [g [r E]].
  apply (drawing_total cc topo ratio weight_text TO c o g r G E HO).
Qed.
Print Assumptions C52_total.

Definition drawn (s : str) : tok0 := {| t0_str := lit "x"; t0_data := [(lit "t", JStr s); (lit "n", JStr (lit "x"))] |}.
Definition drawn_text (s : str) : collation := [{| w_sigil := lit "A"; w_toks := [drawn s] |}].

(** Refuted: "different texts give different drawings".  Ampersands are not escaped. *)
Theorem C52_escape_refuted : exists c1 c2 d, good_sigla c1 /\ good_sigla c2 /\
  (exists w1 w2 t1 t2 s1 s2, c1 = [w1] /\ c2 = [w2] /\ w_toks w1 = [t1] /\ w_toks w2 = [t2] /\
     dget str_eqb (lit "t") (t0_data t1) = Some (JStr s1) /\ dget str_eqb (lit "t") (t0_data t2) = Some (JStr s2) /\ s1 <> s2) /\
  collate_drawing kahn (fun _ => []) ascii_cc sample_ratio c1 (plain_options "svg") = Ok d /\
  collate_drawing kahn (fun _ => []) ascii_cc sample_ratio c2 (plain_options "svg") = Ok d.
Proof.
  exists (drawn_text (lit "<")), (drawn_text (lit "&lt;")). eexists. split; [split; cbn; [repeat constructor; cbn; tauto|intuition discriminate]|].
  split; [split; cbn; [repeat constructor; cbn; tauto|intuition discriminate]|]. split.
  - exists {| w_sigil := lit "A"; w_toks := [drawn (lit "<")] |}, {| w_sigil := lit "A"; w_toks := [drawn (lit "&lt;")] |}, (drawn (lit "<")), (drawn (lit "&lt;")), (lit "<"), (lit "&lt;").
    do 6 (split; [reflexivity|]). intros C. vm_compute in C. discriminate.
  - split; vm_compute; reflexivity.
Qed.
Print Assumptions C52_escape_refuted.

(** Refuted: "whatever can be collated can be drawn": tokens with a normalised form only. *)
Theorem C52_no_text_refuted : exists c, good_sigla c /\ (exists t, collate ascii_cc kahn sample_ratio c (plain_options "table") = Ok (OTable t)) /\
  (exists d, collate_drawing kahn (fun _ => []) ascii_cc sample_ratio c (plain_options "svg_simple") = Ok d) /\
  collate_drawing kahn (fun _ => []) ascii_cc sample_ratio c (plain_options "svg") = Raise KeyError.
Proof.
  exists [{| w_sigil := lit "A"; w_toks := [{| t0_str := lit "x"; t0_data := [(lit "n", JStr (lit "x"))] |}] |}].
  split; [split; cbn; [repeat constructor; cbn; tauto|intuition discriminate]|].
  split; [eexists; vm_compute; reflexivity|]. split; [eexists; vm_compute; reflexivity|vm_compute; reflexivity].
Qed.
Print Assumptions C52_no_text_refuted.

(** A collation with near matching: eight nodes, one dashed edge. *)
Example C52_example : good_sigla near_swap /\ exists d, collate_drawing kahn (fun _ => lit "0.86") ascii_cc sample_ratio near_swap (near_options "svg") = Ok d /\
  length (dr_nodes d) = 8 /\ length (dr_groups d) = 7 /\
  map (fun e => (de_from e, de_to e, de_label e)) (filter de_dashed (dr_edges d)) = [(lit "6", lit "8", lit "0.86")] /\
  In {| de_from := lit "1"; de_to := lit "8"; de_dashed := false; de_label := lit "B, C" |} (dr_edges d) /\
  exists n, In n (dr_nodes d) /\ dn_label n = node_label (lit "pot") 3 [(lit "pot", [lit "A"; lit "B"])].
Proof.
  split; [split; cbn; [repeat constructor; cbn; intuition discriminate|intuition discriminate]|]. eexists. split; [vm_compute; reflexivity|].
  split; [reflexivity|]. split; [reflexivity|]. split; [vm_compute; reflexivity|]. split; [vm_compute; tauto|].
  eexists. split; [do 4 right; left; reflexivity|vm_compute; reflexivity].
Qed.
