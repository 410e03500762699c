(** Properties of collate: graph, ranks, table, errors (C03-C10, C18, C22-C24, C32,
    C34-C37, C40, C44). *)
From Verif Require Import Py TokenModel SuffixModel IndexModel GraphModel AlignModel TableModel NearModel ExportModel
  CollateModel Lib GraphSpec TableSpec CollateSpec Samples GraphProof RankProof JoinProof TopoProof ResultProof ErrorProof FactsProof OutputProof StageProof PlainProof
  VariantProof NearProof.
From Coq Require Import Permutation Relations QArith.
Open Scope list_scope.
Open Scope nat_scope.

(** The sample collations satisfy the hypotheses used below. *)
Definition no_similarity : str -> str -> Q := fun _ _ => 0%Q.
Lemma three_good : good_sigla three_witnesses.
Proof. split; [repeat constructor; cbn; intuition discriminate|cbn; intuition discriminate]. Qed.
Lemma marker_letter : forall s k c s', s = c :: s' -> c <> 36%N -> s <> lit "$" ++ str_of_nat k.
Proof. intros s k c s' -> H E. injection E as E _. congruence. Qed.
Lemma three_wellformed : three_witnesses <> [] /\ good_sigla three_witnesses /\ no_empty_witness three_witnesses /\
  no_markers three_witnesses /\ has_texts three_witnesses.
Proof.
  split; [discriminate|]. split; [apply three_good|]. split; [repeat constructor; discriminate|]. split.
  - intros w t k Hw Ht. cbn [three_witnesses In] in Hw. repeat (destruct Hw as [<-|Hw]; [cbn [words w_toks map In] in Ht|]); try contradiction;
      repeat (destruct Ht as [<-|Ht]; [eapply marker_letter; [reflexivity|vm_compute; discriminate]|]); contradiction.
  - intros w t Hw Ht. cbn [three_witnesses In] in Hw. repeat (destruct Hw as [<-|Hw]; [cbn [words w_toks map In] in Ht|]); try contradiction;
      repeat (destruct Ht as [<-|Ht]; [eexists; reflexivity|]); contradiction.
Qed.

(** ** C03, C04: rows *)
Theorem C03_rows_lossless : forall cc topo ratio c o t, topo_ok topo -> good_sigla c ->
  o_near o = false -> o_segmentation o = false ->
  collate cc topo ratio c o = Ok (OTable t) ->
  Forall2 (fun w ro => r_header ro = w_sigil w /\ Forall2 (came_from (w_sigil w)) (w_toks w) (row_tokens ro)) c (t_rows t).
Proof. intros cc topo ratio c o t TO [ND NE] Hn _ H. apply (rows_lossless cc topo ratio TO c o t ND NE Hn H). Qed.
Print Assumptions C03_rows_lossless.

Theorem C04_rows_lossless : forall cc topo ratio c o t, topo_ok topo -> good_sigla c ->
  o_near o = false -> o_segmentation o = true ->
  collate cc topo ratio c o = Ok (OTable t) ->
  Forall2 (fun w ro => r_header ro = w_sigil w /\ Forall2 (came_from (w_sigil w)) (w_toks w) (row_tokens ro)) c (t_rows t).
Proof. intros cc topo ratio c o t TO [ND NE] Hn _ H. apply (rows_lossless cc topo ratio TO c o t ND NE Hn H). Qed.
Print Assumptions C04_rows_lossless.

Example C03_C04_example :
  table_of (collate ascii_cc kahn no_similarity three_witnesses (plain_options "table")) =
    Ok [[[lit "the"]; [lit "quick"]; [lit "brown"]; [lit "fox"]; [lit "jumps"]; []];
        [[lit "the"]; []; [lit "brown"]; [lit "fox"]; [lit "jumps"]; [lit "twice"]];
        [[lit "a"]; [lit "quick"]; []; [lit "fox"]; [lit "jumps"]; []]] /\
  table_of (collate ascii_cc kahn no_similarity three_witnesses (seg_options "table")) =
    Ok [[[lit "the"]; [lit "quick"]; [lit "brown"]; [lit "fox"; lit "jumps"]; []];
        [[lit "the"]; []; [lit "brown"]; [lit "fox"; lit "jumps"]; [lit "twice"]];
        [[lit "a"]; [lit "quick"]; []; [lit "fox"; lit "jumps"]; []]] /\
  topo_ok kahn /\ good_sigla three_witnesses.
Proof. split; [vm_compute; reflexivity|]. split; [vm_compute; reflexivity|]. split; [apply kahn_topo_ok|apply three_good]. Qed.

(** ** C05: shape of the table, whatever the options *)
Theorem C05_table_shape : forall cc topo ratio c o t, topo_ok topo -> good_sigla c ->
  collate cc topo ratio c o = Ok (OTable t) ->
  map r_header (t_rows t) = map w_sigil c /\
  (forall ro, In ro (t_rows t) -> length (r_cells ro) = length (t_columns t) /\
     forall ts, In (Some ts) (r_cells ro) -> ts <> []) /\
  (forall i, i < length (t_columns t) -> exists ro ts, In ro (t_rows t) /\ nth_error (r_cells ro) i = Some (Some ts)).
Proof. intros cc topo ratio c o t TO [ND NE] H. apply (table_shape cc topo ratio TO c o t ND NE H). Qed.
Print Assumptions C05_table_shape.

Example C05_example : exists t, collate ascii_cc kahn no_similarity three_witnesses (seg_options "table") = Ok (OTable t) /\
  length (t_rows t) = 3 /\ length (t_columns t) = 5 /\ In None (flat_map r_cells (t_rows t)).
Proof. eexists. split; [vm_compute; reflexivity|]. split; [reflexivity|]. split; [reflexivity|]. cbn. tauto. Qed.

(** ** C06: no cycles *)
Theorem C06_acyclic : forall cc topo ratio c o g, topo_ok topo -> good_sigla c ->
  collate cc topo ratio c o = Ok (OGraph g) -> acyclic g.
Proof.
  intros cc topo ratio c o g TO G H. destruct (collate_graph_inv cc topo ratio c o g H) as [r H1]. apply (graph_acyclic cc topo ratio TO c o g r G H1).
Qed.
Print Assumptions C06_acyclic.

Theorem C06_acyclic_stages : forall topo filt c k g, topo_ok topo -> good_sigla c ->
  stage topo filt c k = Ok g -> acyclic g.
Proof. intros topo filt c k g TO G H. destruct (stage_inv topo filt c k g TO G H) as [W [GI _]]. apply (gi_acyclic _ _ GI). Qed.
Print Assumptions C06_acyclic_stages.

(** The stages end in the graph that is returned (without near matching and segmentation). *)
Theorem C06_stages_reach_result : forall cc topo ratio c o g, o_near o = false -> o_segmentation o = false -> o_transp o = false ->
  collate cc topo ratio c o = Ok (OGraph g) -> stage topo (o_filter o) c (length c) = Ok g.
Proof.
  intros cc topo ratio c o g Hn Hs Ht H. destruct (collate_graph_inv cc topo ratio c o g H) as [r H1].
  unfold collate_graph in H1. rewrite Hn, Hs, Ht in H1. apply bind_ok in H1 as [[ti g1] [A H1]]. destruct (o_astar o); [discriminate|].
  apply bind_ok in H1 as [rk [_ H1]]. injection H1 as -> _. apply (stage_last topo (o_filter o) c ti g A).
Qed.
Print Assumptions C06_stages_reach_result.

Theorem C06_no_cycle_error : forall cc topo ratio c o, topo_ok topo -> good_sigla c ->
  collate cc topo ratio c o <> Raise GraphCycle.
Proof. intros cc topo ratio c o TO [ND NE]. apply (no_cycle_error cc topo ratio TO c o ND NE). Qed.
Print Assumptions C06_no_cycle_error.

(** ** C07: witnesses are paths, and there is nothing else in the graph *)
Theorem C07_witness_paths : forall cc topo ratio c o g, topo_ok topo -> good_sigla c ->
  collate cc topo ratio c o = Ok (OGraph g) ->
  exists W, Forall2 carries c W /\ made_of_paths g W.
Proof.
  intros cc topo ratio c o g TO G H. destruct (collate_graph_inv cc topo ratio c o g H) as [r H1].
  destruct (graph_paths cc topo ratio TO c o g r G H1) as [W [A [B _]]]. eauto.
Qed.
Print Assumptions C07_witness_paths.

(** ** C08: tokens on one vertex agree *)
Theorem C08_aligned_tokens_agree : forall cc topo ratio c o g, topo_ok topo -> good_sigla c ->
  o_segmentation o = false -> collate cc topo ratio c o = Ok (OGraph g) ->
  forall v vx sg ts, dget Nat.eqb v (g_verts g) = Some vx -> In (sg, ts) (v_tokens vx) ->
  exists t, ts = [t] /\ tk_str t = v_label vx.
Proof.
  intros cc topo ratio c o g TO G Hs H v vx sg ts D Hi. destruct (collate_graph_inv cc topo ratio c o g H) as [r H1].
  destruct (graph_paths cc topo ratio TO c o g r G H1) as [W [_ [MP _]]].
  destruct (vertex_readings cc topo ratio TO c o g r G H1 v vx D) as [rd [A [_ C]]].
  destruct (Nat.eq_dec v v_start) as [E|N1]; [rewrite (mp_ends _ _ MP v vx (or_introl E) D) in Hi; contradiction|].
  destruct (Nat.eq_dec v v_end) as [E|N2]; [rewrite (mp_ends _ _ MP v vx (or_intror E) D) in Hi; contradiction|].
  specialize (A sg ts Hi). rewrite (C Hs N1 N2) in A. destruct ts as [|t [|? ?]]; try discriminate. exists t. injection A as A. auto.
Qed.
Print Assumptions C08_aligned_tokens_agree.

(** With segmentation: the witnesses of a vertex have the same sequence of readings, and
    the label is the text of these readings. *)
Lemma printed_fold : forall cc ws w, printed cc (w :: ws) (fold_left (join_labels cc) ws w).
Proof.
  intros cc ws w. change (w :: ws) with ([w] ++ ws).
  assert (G : forall ws ws0 l, printed cc ws0 l -> printed cc (ws0 ++ ws) (fold_left (join_labels cc) ws l)).
  { intros xs. induction xs as [|x xs IH]; intros ws0 l P; [rewrite app_nil_r; assumption|].
    replace (ws0 ++ x :: xs) with ((ws0 ++ [x]) ++ xs) by (rewrite <- app_assoc; reflexivity). cbn [fold_left]. apply IH.
    unfold join_labels. destruct x as [|c r]; cbn [starts_nonword].
    - apply printed_spaced; [assumption|discriminate].
    - destruct (isw cc c) eqn:E; cbn [negb].
      + apply printed_spaced; [assumption|]. intros c' r' Q. congruence.
      + apply printed_glued; assumption. }
  apply G. constructor.
Qed.
Theorem C08_segments_agree : forall cc topo ratio c o g, topo_ok topo -> good_sigla c ->
  collate cc topo ratio c o = Ok (OGraph g) ->
  forall v vx, dget Nat.eqb v (g_verts g) = Some vx -> v <> v_start -> v <> v_end ->
  exists ws, printed cc ws (v_label vx) /\
    forall sg ts, In (sg, ts) (v_tokens vx) -> map tk_str ts = ws.
Proof.
  intros cc topo ratio c o g TO G H v vx D N1 N2. destruct (collate_graph_inv cc topo ratio c o g H) as [r H1].
  destruct (vertex_readings cc topo ratio TO c o g r G H1 v vx D) as [rd [A [B _]]]. destruct (B N1 N2) as [w [ws [-> E]]].
  exists (w :: ws). split; [rewrite E; apply printed_fold|exact A].
Qed.
Print Assumptions C08_segments_agree.

(** The graph of the sample: with near matching, and with segmentation. *)
Example C06_C07_C08_example : exists g g', collate ascii_cc kahn no_similarity three_witnesses (near_options "graph") = Ok (OGraph g) /\
  collate ascii_cc kahn no_similarity three_witnesses (seg_options "graph") = Ok (OGraph g') /\
  length (vertices g) = 9 /\ length (edge_pairs g) = 12 /\ length (vertices g') = 8 /\
  exists v vx, dget Nat.eqb v (g_verts g') = Some vx /\ map (fun x => map tk_str (snd x)) (v_tokens vx) = repeat [lit "fox"; lit "jumps"] 3.
Proof.
  eexists. eexists. split; [vm_compute; reflexivity|]. split; [vm_compute; reflexivity|]. split; [reflexivity|]. split; [reflexivity|]. split; [reflexivity|].
  exists 5. eexists. split; [vm_compute; reflexivity|vm_compute; reflexivity].
Qed.

(** ** C09: columns not marked variant *)
Theorem C09_invariant_columns : forall cc topo ratio c o t, topo_ok topo -> good_sigla c ->
  collate cc topo ratio c o = Ok (OTable t) ->
  forall i col, nth_error (t_columns t) i = Some col -> c_variant col = false ->
  exists rd, forall ro, In ro (t_rows t) -> exists ts, nth_error (r_cells ro) i = Some (Some ts) /\ map tk_str ts = rd.
Proof. intros cc topo ratio c o t TO [ND NE] H. apply (invariant_columns cc topo ratio TO c o t ND NE H). Qed.
Print Assumptions C09_invariant_columns.

(** The sample has columns of both kinds. *)
Example C09_example : exists t, collate ascii_cc kahn no_similarity three_witnesses (seg_options "table") = Ok (OTable t) /\
  map c_variant (t_columns t) = [true; true; true; false; true].
Proof.
  destruct (collate ascii_cc kahn no_similarity three_witnesses (seg_options "table")) as [x|] eqn:E; [|exfalso; vm_compute in E; discriminate].
  vm_compute in E. injection E as <-. eexists. split; [reflexivity|reflexivity].
Qed.

(** ** C10: columns marked variant.  Missing: two different vertices of one rank may have
    the same label, so a column may be marked variant although all readings are equal. *)
Theorem C10_variant_partial : forall cc topo ratio c o g t, topo_ok topo -> good_sigla c -> o_near o = false ->
  collate cc topo ratio c (set_output o (lit "graph")) = Ok (OGraph g) ->
  collate cc topo ratio c (set_output o (lit "table")) = Ok (OTable t) ->
  forall i col, nth_error (t_columns t) i = Some col -> c_variant col = true ->
    (exists ro, In ro (t_rows t) /\ nth_error (r_cells ro) i = Some None) \/
    (exists ro1 ro2 ts1 ts2 v1 v2 vx1 vx2, In ro1 (t_rows t) /\ In ro2 (t_rows t) /\
       nth_error (r_cells ro1) i = Some (Some ts1) /\ nth_error (r_cells ro2) i = Some (Some ts2) /\
       v1 <> v2 /\ dget Nat.eqb v1 (g_verts g) = Some vx1 /\ dget Nat.eqb v2 (g_verts g) = Some vx2 /\
       In (r_header ro1, ts1) (v_tokens vx1) /\ In (r_header ro2, ts2) (v_tokens vx2)).
Proof. exact variant_columns. Qed.
Print Assumptions C10_variant_partial.

Theorem C10_variant_refuted : exists c t i col, good_sigla c /\
  collate ascii_cc kahn no_similarity c (plain_options "table") = Ok (OTable t) /\
  nth_error (t_columns t) i = Some col /\ c_variant col = true /\
  forall ro, In ro (t_rows t) -> exists ts, nth_error (r_cells ro) i = Some (Some ts) /\ map tk_str ts = [lit "a"].
Proof.
  exists equal_readings.
  destruct (collate ascii_cc kahn no_similarity equal_readings (plain_options "table")) as [x|] eqn:E; [|exfalso; vm_compute in E; discriminate].
  vm_compute in E. injection E as <-. eexists. exists 3. eexists.
  split; [split; [repeat constructor; cbn; intuition discriminate|cbn; intuition discriminate]|].
  split; [reflexivity|]. split; [reflexivity|]. split; [reflexivity|].
  intros ro Hr. cbn [t_rows In] in Hr. repeat (destruct Hr as [<-|Hr]; [eexists; split; reflexivity|]). contradiction.
Qed.
Print Assumptions C10_variant_refuted.

(** ** C18: no exceptions *)
Theorem C18_collate_succeeds : forall cc topo ratio c o, topo_ok topo ->
  c <> [] -> good_sigla c -> no_empty_witness c -> no_markers c ->
  In (o_output o) outputs -> (In (o_output o) outputs_with_text -> has_texts c) ->
  o_astar o = false -> o_transp o = false -> (o_near o = true -> o_segmentation o = false) ->
  exists x, collate cc topo ratio c o = Ok x /\ representation_ok (o_output o) x.
Proof.
  intros cc topo ratio c o TO H1 H2 H3 H4 H5 H6 H7 H8 H9. destruct (succeeds_all cc topo ratio TO c o H1 H2 H3 (no_markers_clash _ _ H4) H5 H6 H7 H8 H9) as [x E].
  exists x. split; [exact E|]. destruct (collate_inv cc topo ratio c o x E) as [g [r [_ [R _]]]]. exact R.
Qed.
Print Assumptions C18_collate_succeeds.

(** Plain-text witnesses satisfy all requirements but the one on sigla. *)
Theorem C18_plain_text : forall cc topo ratio l o, topo_ok topo -> dollar_apart cc ->
  l <> [] -> NoDup (map fst l) -> ~ In [] (map fst l) -> Forall (fun x => snd x <> []) l ->
  In (o_output o) outputs -> o_astar o = false -> o_transp o = false -> (o_near o = true -> o_segmentation o = false) ->
  exists c x, plain_collation cc l = Ok c /\ collate cc topo ratio c o = Ok x /\ representation_ok (o_output o) x.
Proof.
  intros cc topo ratio l o TO DA NL ND NE FT IO O1 O2 O3. rewrite plain_collation_spec. eexists.
  destruct (plain_wellformed cc l DA FT) as [P1 [P2 [P3 P4]]].
  destruct (C18_collate_succeeds cc topo ratio (map (plain_witness_of cc) l) o TO) as [x X]; auto.
  - destruct l; [congruence|discriminate].
  - split; rewrite P1; assumption.
  - exists x. split; [reflexivity|exact X].
Qed.
Print Assumptions C18_plain_text.

Example C18_example : exists c x, plain_collation ascii_cc [(lit "A", lit "a cat, $1"); (lit "B", lit "the cat.")] = Ok c /\
  collate ascii_cc kahn no_similarity c (seg_options "csv") = Ok x.
Proof.
  destruct (C18_plain_text ascii_cc kahn no_similarity [(lit "A", lit "a cat, $1"); (lit "B", lit "the cat.")] (seg_options "csv")) as [c [x [A [B _]]]]; eauto; try reflexivity.
  - apply kahn_topo_ok.
  - split; [reflexivity|]. intros ch H. cbn. assert (E : ((48 <=? ch) && (ch <=? 57))%N = true) by (apply andb_true_iff; split; apply N.leb_le; lia).
    rewrite E, !orb_true_r. reflexivity.
  - discriminate.
  - repeat constructor; cbn; intuition discriminate.
  - cbn; intuition discriminate.
  - repeat constructor; discriminate.
  - unfold outputs. apply in_or_app. right. cbn. auto.
Qed.

(** ** C22: near matching with segmentation *)
Theorem C22_no_result : forall cc topo ratio c o x, o_near o = true -> o_segmentation o = true ->
  collate cc topo ratio c o <> Ok x.
Proof. intros. apply near_segmentation_never; assumption. Qed.
Print Assumptions C22_no_result.

Theorem C22_segmentation_error : forall cc topo ratio c o, topo_ok topo ->
  c <> [] -> good_sigla c -> no_empty_witness c -> ~ marker_clash (o_filter o) c ->
  o_astar o = false -> o_transp o = false -> o_near o = true -> o_segmentation o = true ->
  collate cc topo ratio c o = Raise SegmentationError.
Proof. intros. apply near_segmentation_error; assumption. Qed.
Print Assumptions C22_segmentation_error.

Definition near_and_segmentation : options :=
  {| o_output := lit "table"; o_vertical := false; o_segmentation := true; o_near := true; o_astar := false; o_transp := false; o_filter := None; o_indent := false |}.
Example C22_example : collate ascii_cc kahn no_similarity three_witnesses near_and_segmentation = Raise SegmentationError.
Proof.
  destruct three_wellformed as [A [B [C [D _]]]]. apply C22_segmentation_error; try reflexivity; try assumption; [apply kahn_topo_ok|apply no_markers_clash; exact D].
Qed.

(** ** C23: segmentation joins maximal chains and nothing else.  [g0] is the graph of the
    same call without segmentation. *)
Theorem C23_segmentation : forall cc topo ratio c o g0 r0, topo_ok topo -> good_sigla c -> o_near o = false ->
  collate_graph cc topo ratio c (set_segmentation o false) = Ok (g0, r0) ->
  exists g r W0 W part, collate_graph cc topo ratio c (set_segmentation o true) = Ok (g, r) /\
    Forall2 carries c W0 /\ graph_of g0 W0 /\ joined cc g0 W0 g W part /\
    (forall u w, In u (vertices g) -> ~ joinable g u w).
Proof. intros. eapply segmentation_spec; eassumption. Qed.
Print Assumptions C23_segmentation.

(** The loop of join ends within 2 * (number of vertices + number of edges) + 1 steps, for
    every variant graph with one token per vertex and witness. *)
Theorem C23_join_terminates : forall cc g0 W0, graph_of g0 W0 -> one_token W0 ->
  exists g, join_loop cc (S (2 * length (vertices g0) + 2 * length (edge_pairs g0))) g0
              (fold_left (fun q e => snd (fst e) :: q) (out_edges g0 v_start) []) [] = Ok g.
Proof.
  intros cc g0 W0 GI ONE. destruct (join_spec cc g0 W0 GI ONE) as [g [W [part [J _]]]]. exists g. unfold join, join_fuel in J.
  unfold vertices, edge_pairs. rewrite !map_length. exact J.
Qed.
Print Assumptions C23_join_terminates.

(** In the sample two vertices become one. *)
Example C23_example : exists g0 r0 g r, collate_graph ascii_cc kahn no_similarity three_witnesses (set_segmentation (plain_options "graph") false) = Ok (g0, r0) /\
  collate_graph ascii_cc kahn no_similarity three_witnesses (set_segmentation (plain_options "graph") true) = Ok (g, r) /\
  length (vertices g0) = 9 /\ length (vertices g) = 8 /\ exists u w, joinable g0 u w.
Proof.
  eexists. eexists. eexists. eexists. split; [vm_compute; reflexivity|]. split; [vm_compute; reflexivity|]. split; [reflexivity|]. split; [reflexivity|].
  exists 5, 6. split; [discriminate|]. split; [discriminate|]. split; intros x; unfold edge, edge_pairs; cbn; (split; [intuition congruence|intros ->; tauto]).
Qed.

(** ** C24: ranks *)
Theorem C24_rank_longest : forall cc topo ratio c o g r, topo_ok topo -> good_sigla c -> o_near o = false ->
  collate_graph cc topo ratio c o = Ok (g, r) ->
  exists rk, longest_from_start g rk /\
    (forall v n, dget Nat.eqb v (by_vertex r) = Some n <-> In v (vertices g) /\ n = rk v) /\
    (forall u v, edge g u v -> rk u < rk v) /\ rk v_start = 0 /\
    (forall v, In v (vertices g) -> v <> v_end -> rk v < rk v_end) /\
    map fst (by_rank r) = seq 0 (S (rk v_end)) /\
    (forall k vs, In (k, vs) (by_rank r) -> vs <> [] /\ NoDup vs /\ forall v, In v vs <-> In v (vertices g) /\ rk v = k).
Proof. intros. eapply ranks_longest; eassumption. Qed.
Print Assumptions C24_rank_longest.

(** For every graph of witness paths, whatever its origin, and any two topological orders. *)
Theorem C24_order_independent : forall topo1 topo2 g W r1 r2, topo_ok topo1 -> topo_ok topo2 -> graph_of g W -> W <> [] ->
  ranking_of topo1 g = Ok r1 -> ranking_of topo2 g = Ok r2 ->
  forall v, dget Nat.eqb v (by_vertex r1) = dget Nat.eqb v (by_vertex r2).
Proof.
  intros topo1 topo2 g W r1 r2 T1 T2 GI NW R1 R2.
  destruct (ranking_spec topo1 g W T1 GI) as [rk1 [m1 [l1 [_ [A1 B1]]]]]. destruct (ranking_spec topo2 g W T2 GI) as [rk2 [m2 [l2 [_ [A2 B2]]]]].
  rewrite A1 in R1. injection R1 as <-. rewrite A2 in R2. injection R2 as <-. apply (by_vertex_unique g W _ _ _ _ _ _ GI NW B1 B2).
Qed.
Print Assumptions C24_order_independent.

(** The ranks of the sample: two vertices of rank 1, one edge that jumps over a rank. *)
Example C24_example : exists g r, collate_graph ascii_cc kahn no_similarity three_witnesses (plain_options "graph") = Ok (g, r) /\
  map (fun x => (fst x, length (snd x))) (by_rank r) = [(0, 1); (1, 2); (2, 1); (3, 1); (4, 1); (5, 1); (6, 1); (7, 1)].
Proof. eexists. eexists. split; [vm_compute; reflexivity|reflexivity]. Qed.

(** ** C32: edge labels *)
Theorem C32_edge_labels : forall cc topo ratio c o g, topo_ok topo -> good_sigla c ->
  collate cc topo ratio c o = Ok (OGraph g) ->
  exists W, Forall2 carries c W /\ made_of_paths g W /\
    forall u v lb, dget edge_eqb (u, v) (g_edges g) = Some lb <-> edge g u v /\ lb = str_join (lit ", ") (users W (u, v)).
Proof.
  intros cc topo ratio c o g TO G H. destruct (collate_graph_inv cc topo ratio c o g H) as [r H1].
  destruct (graph_paths cc topo ratio TO c o g r G H1) as [W [A [B C]]]. exists W. split; [assumption|]. split; [assumption|].
  intros u v lb. split.
  - intros D. split.
    + apply (dget_In _ edge_eqb_ok) in D. apply (in_map fst) in D. exact D.
    + rewrite C in D. destruct (users W (u, v)); [discriminate|]. injection D as <-. reflexivity.
  - intros [E ->]. assert (D : dget edge_eqb (u, v) (g_edges g) <> None).
    { destruct (dget_Some_key _ edge_eqb_ok (u, v) (g_edges g) E) as [x ->]. discriminate. }
    rewrite C in *. destruct (users W (u, v)); [congruence|reflexivity].
Qed.
Print Assumptions C32_edge_labels.

Example C32_example : exists g, collate ascii_cc kahn no_similarity three_witnesses (seg_options "graph") = Ok (OGraph g) /\
  In (lit "A, B") (map snd (g_edges g)) /\ length (g_edges g) = 11.
Proof.
  destruct (collate ascii_cc kahn no_similarity three_witnesses (seg_options "graph")) as [x|] eqn:E; [|exfalso; vm_compute in E; discriminate].
  vm_compute in E. injection E as <-. eexists. split; [reflexivity|]. split; [cbn; auto|reflexivity].
Qed.

(** ** C34: repeated sigla.  Missing: a repetition that does not involve the first witness
    may go unnoticed. *)
Theorem C34_first_siglum_partial : forall cc topo ratio w c o x, In (w_sigil w) (map w_sigil c) ->
  collate cc topo ratio (w :: c) o <> Ok x.
Proof.
  intros cc topo ratio w c o x Hi H. unfold collate, collate_graph in H. apply bind_ok in H as [[g r] [H _]].
  apply bind_ok in H as [[ti g1] [H _]]. destruct (o_astar o); [discriminate|].
  destruct (first_siglum_repeated topo w c (o_filter o) (o_transp o) Hi) as [e E]. rewrite E in H. discriminate.
Qed.
Print Assumptions C34_first_siglum_partial.

Theorem C34_duplicate_sigla_refuted : exists c t, ~ NoDup (map w_sigil c) /\
  collate ascii_cc kahn no_similarity c (plain_options "table") = Ok (OTable t) /\
  ~ exists ro, In ro (t_rows t) /\ In (lit "x") (map tk_str (row_tokens ro)).
Proof.
  exists repeated_siglum.
  destruct (collate ascii_cc kahn no_similarity repeated_siglum (plain_options "table")) as [x|] eqn:E; [|exfalso; vm_compute in E; discriminate].
  vm_compute in E. injection E as <-. eexists. split; [|split; [reflexivity|]].
  - intros N. inversion N as [|? ? _ N2]; subst. inversion N2 as [|? ? N3 _]; subst. apply N3. left. reflexivity.
  - intros [ro [Hr Hx]]. cbn [t_rows In] in Hr. repeat (destruct Hr as [<-|Hr]; [vm_compute in Hx; intuition discriminate|]). contradiction.
Qed.
Print Assumptions C34_duplicate_sigla_refuted.
(** Whenever a table comes out, witnesses of one siglum have one and the same row; so of two such
    witnesses with different words at least one is not shown. *)
Theorem C34_same_row_refuted : forall cc topo ratio c o t i j wi wj ri rj, collate cc topo ratio c o = Ok (OTable t) ->
  nth_error c i = Some wi -> nth_error c j = Some wj -> w_sigil wi = w_sigil wj ->
  nth_error (t_rows t) i = Some ri -> nth_error (t_rows t) j = Some rj ->
  ri = rj /\ (map t0_str (w_toks wi) <> map t0_str (w_toks wj) ->
              ~ (map tk_str (row_tokens ri) = map t0_str (w_toks wi) /\ map tk_str (row_tokens rj) = map t0_str (w_toks wj))).
Proof.
  intros cc topo ratio c o t i j wi wj ri rj H Hi Hj E Ri Rj.
  assert (R : ri = rj).
  { apply collate_table_inv in H as [g [r [_ H]]]. unfold construct_table in H. apply bind_ok in H as [cols [_ H]]. injection H as <-. cbn [t_rows] in Ri, Rj.
    rewrite nth_error_map, nth_error_map, Hi in Ri. rewrite nth_error_map, nth_error_map, Hj in Rj. cbn in Ri, Rj. rewrite <- E in Rj. congruence. }
  split; [exact R|]. subst rj. intros D [A B]. apply D. congruence.
Qed.
Print Assumptions C34_same_row_refuted.

(** ** C35: empty witnesses *)
Theorem C35_empty_witness : forall cc topo ratio c o, o_astar o = false -> Exists (fun w => w_toks w = []) c ->
  collate cc topo ratio c o = Raise AssertionError.
Proof. intros. apply empty_fails; assumption. Qed.
Print Assumptions C35_empty_witness.
Theorem C35_no_witness : forall cc topo ratio o, o_astar o = false -> collate cc topo ratio [] o = Raise IndexError.
Proof. intros. apply none_fails; assumption. Qed.
Print Assumptions C35_no_witness.

Example C35_example : Exists (fun w => w_toks w = []) [words "A" ["a"; "b"]; words "B" []; words "C" ["b"]] /\
  collate ascii_cc kahn no_similarity [words "A" ["a"; "b"]; words "B" []; words "C" ["b"]] (seg_options "table") = Raise AssertionError.
Proof. split; [right; left; reflexivity|]. apply C35_empty_witness; [reflexivity|right; left; reflexivity]. Qed.

(** ** C36: astar=True never returns a result. *)
Theorem C36_astar_refuted : forall cc topo ratio c o, o_astar o = true -> collate cc topo ratio c o = Raise TypeError.
Proof. intros. apply astar_fails; assumption. Qed.
Print Assumptions C36_astar_refuted.

(** ** C37: detect_transpositions=True fails as soon as there are two witnesses; with one
    witness the option has no effect. *)
Theorem C37_transpositions_refuted : forall cc topo ratio c o, topo_ok topo -> 2 <= length c -> good_sigla c -> no_empty_witness c -> ~ marker_clash (o_filter o) c ->
  o_astar o = false -> o_transp o = true -> collate cc topo ratio c o = Raise AttributeError.
Proof. intros. apply transposition_fails; assumption. Qed.
Print Assumptions C37_transpositions_refuted.
Theorem C37_single_witness_partial : forall cc topo ratio w o,
  collate cc topo ratio [w] o = collate cc topo ratio [w] (set_transp o false).
Proof. intros. apply transposition_single. Qed.
Print Assumptions C37_single_witness_partial.

(** ** C40: dispatch on the output name *)
Theorem C40_representation : forall cc topo ratio c o x, collate cc topo ratio c o = Ok x ->
  In (o_output o) outputs /\ representation_ok (o_output o) x.
Proof.
  intros cc topo ratio c o x H. destruct (collate_inv cc topo ratio c o x H) as [g [r [_ [R _]]]]. split; [|exact R].
  unfold outputs, outputs_with_text. destruct x as [[|]| | | | | | | |]; cbn in R |- *;
    repeat match goal with H : _ \/ _ |- _ => destruct H end; subst; auto 20.
Qed.
Print Assumptions C40_representation.
(** Called with the collation only, collate returns a table, and it is segmented: it has the witnesses'
    rows, and in the graph it is made from no two vertices could still be joined. *)
Theorem C40_defaults : forall cc topo ratio c, topo_ok topo ->
  c <> [] -> good_sigla c -> no_empty_witness c -> no_markers c ->
  exists t g r, collate cc topo ratio c default_options = Ok (OTable t) /\
    Forall2 (fun w ro => r_header ro = w_sigil w /\ Forall2 (came_from (w_sigil w)) (w_toks w) (row_tokens ro)) c (t_rows t) /\
    collate_graph cc topo ratio c default_options = Ok (g, r) /\ construct_table (map w_sigil c) g r = Ok t /\
    (forall u w, In u (vertices g) -> ~ joinable g u w).
Proof.
  intros cc topo ratio c TO N G NE NM.
  destruct (C18_collate_succeeds cc topo ratio c default_options TO N G NE NM) as [x [E R]]; try reflexivity; [cbn; tauto|cbn; intros Q; exfalso; repeat (destruct Q as [Q|Q]; [discriminate|]); destruct Q|discriminate|].
  assert (exists t, x = OTable t) as [t ->].
  { destruct x as [[|]| | | | | | | |]; cbn in R; try discriminate; try (destruct R as [R|R]; discriminate); eauto. }
  destruct (collate_table_inv cc topo ratio c _ t E) as [g [r [E1 E2]]]. exists t, g, r. split; [exact E|].
  split; [apply (C04_rows_lossless cc topo ratio c default_options t TO G eq_refl eq_refl E)|]. split; [exact E1|]. split; [exact E2|].
  destruct (collate_graph cc topo ratio c (set_segmentation default_options false)) as [[g0 r0]|e] eqn:E0.
  - destruct (C23_segmentation cc topo ratio c default_options g0 r0 TO G eq_refl E0) as [g' [r' [W0 [W [part [F1 [_ [_ [_ F2]]]]]]]]].
    change (set_segmentation default_options true) with default_options in F1. rewrite E1 in F1. injection F1 as <- <-. exact F2.
  - exfalso. clear - E0 E1. unfold collate_graph in E0, E1. cbn [o_astar o_near o_segmentation default_options set_segmentation o_filter o_transp] in E0, E1.
    destruct (aligner_collate _ _ _ _) as [[? ga]|]; cbn [bind] in *; [|discriminate]. destruct (ranking_of topo ga); discriminate.
Qed.
Print Assumptions C40_defaults.
Theorem C40_unknown_output : forall cc topo ratio c o, topo_ok topo ->
  c <> [] -> good_sigla c -> no_empty_witness c -> ~ marker_clash (o_filter o) c ->
  o_astar o = false -> o_transp o = false -> (o_near o = true -> o_segmentation o = false) -> ~ In (o_output o) outputs ->
  collate cc topo ratio c o = Raise UnknownOutput.
Proof.
  intros cc topo ratio c o TO N G NE NM O1 O2 O3 U. 
  destruct (graph_total_all cc topo ratio TO c o N G NE NM O1 O2 O3) as [g [r E]].
  apply (collate_unknown cc topo ratio TO c o g r G U E).
Qed.
Print Assumptions C40_unknown_output.

Example C40_example : exists t, collate ascii_cc kahn no_similarity three_witnesses default_options = Ok (OTable t) /\
  collate ascii_cc kahn no_similarity three_witnesses (set_output default_options (lit "pdf")) = Raise UnknownOutput.
Proof.
  destruct three_wellformed as [A [B [C [D _]]]]. destruct (C40_defaults ascii_cc kahn no_similarity three_witnesses kahn_topo_ok A B C D) as [t [g [r [E _]]]].
  exists t. split; [exact E|]. apply C40_unknown_output; try assumption; try reflexivity; [apply kahn_topo_ok|apply no_markers_clash; exact D|discriminate|].
  unfold outputs, outputs_with_text. intros H. repeat (destruct H as [H|H]; [discriminate|]). destruct H.
Qed.

(** ** C44: the result does not depend on the topological order networkx picks *)
Theorem C44_order_independent : forall cc topo1 topo2 ratio c o x1, topo_ok topo1 -> topo_ok topo2 -> good_sigla c -> o_near o = false ->
  collate cc topo1 ratio c o = Ok x1 ->
  exists x2, collate cc topo2 ratio c o = Ok x2 /\ same_output x1 x2.
Proof. intros cc topo1 topo2 ratio c o x1 T1 T2 G Hn H. apply (output_order cc topo1 topo2 ratio T1 T2 c o x1 G Hn H). Qed.
Print Assumptions C44_order_independent.

(** Another topological order: that of the same vertices and edges, taken from the last to the first. *)
Definition backwards (g : graph) : graph := {| g_verts := rev (g_verts g); g_edges := rev (g_edges g); g_near := g_near g; g_next := g_next g |}.
Definition kahn_last (g : graph) : res (list vid) := kahn (backwards g).
Lemma kahn_last_ok : topo_ok kahn_last.
Proof.
  intros g N E NE AC.
  assert (V : vertices (backwards g) = rev (vertices g)) by (unfold vertices, backwards; cbn [g_verts]; apply map_rev).
  assert (P : edge_pairs (backwards g) = rev (edge_pairs g)) by (unfold edge_pairs, backwards; cbn [g_edges]; apply map_rev).
  assert (EE : forall u v, edge (backwards g) u v <-> edge g u v) by (intros u v; unfold edge; rewrite P, <- in_rev; reflexivity).
  destruct (kahn_topo_ok (backwards g)) as [l [T1 [T2 T3]]].
  - rewrite V. apply NoDup_rev. exact N.
  - intros u v He. rewrite V, <- !in_rev. apply E. apply EE. exact He.
  - rewrite P. apply NoDup_rev. exact NE.
  - intros v C. apply (AC v). clear - C EE.
    assert (G : forall a b, clos_trans vid (edge (backwards g)) a b -> clos_trans vid (edge g) a b).
    { intros a b H. induction H as [a b H|a b d H1 I1 H2 I2]; [apply t_step; apply EE; exact H|apply t_trans with b; assumption]. }
    apply G. exact C.
  - exists l. split; [exact T1|]. split; [rewrite T2, V; symmetry; apply Permutation_rev|]. intros u v He. apply T3. apply EE. exact He.
Qed.
Example C44_example : exists g r g' r', collate_graph ascii_cc kahn no_similarity three_witnesses (plain_options "table") = Ok (g, r) /\
  collate_graph ascii_cc kahn_last no_similarity three_witnesses (plain_options "table") = Ok (g', r') /\
  topo_ok kahn /\ topo_ok kahn_last /\ by_rank r <> by_rank r'.
Proof.
  eexists. eexists. eexists. eexists. split; [vm_compute; reflexivity|]. split; [vm_compute; reflexivity|]. split; [apply kahn_topo_ok|]. split; [apply kahn_last_ok|]. cbn. discriminate.
Qed.
