(** Segmentation and the alignment (C66). *)
From Verif Require Import Py Lib TokenModel SuffixModel IndexModel GraphModel AlignModel TableModel NearModel ExportModel CollateModel GraphSpec CollateSpec
  GraphProof MergeProof RankProof TableSpec AlignProof JoinProof AlignerProof CollateProof StageProof ResultProof FactsProof NearProof OutputProof SegSpec SegProof GrowSpec Samples TopoProof.
Open Scope list_scope.
Open Scope nat_scope.

(** C66: two tokens are aligned with segmentation, at the same place of their segments, exactly if they are
    aligned without it. *)
Theorem C66_alignment : forall cc topo ratio c o g0 g, topo_ok topo -> good_sigla c -> o_near o = false ->
  collate cc topo ratio c (set_segmentation o false) = Ok (OGraph g0) ->
  collate cc topo ratio c (set_segmentation o true) = Ok (OGraph g) ->
  forall sg t sg' t', aligned_at g0 sg t sg' t' <-> aligned_at g sg t sg' t'.
Proof.
  intros cc topo ratio c o g0 g TO GS On H0 H sg t sg' t'.
  destruct (collate_graph_inv cc topo ratio c _ g0 H0) as [r0 G0]. destruct (collate_graph_inv cc topo ratio c _ g H) as [r G].
  destruct (segmentation_spec cc topo ratio TO c o g0 r0 GS On G0) as [g' [r' [W0 [W [part [A [_ [GI0 [J _]]]]]]]]].
  assert (g' = g) by congruence. subst g'. destruct (ranking_spec topo g0 W0 TO GI0) as [rk [m [l [_ [_ RO]]]]].
  apply (segments_aligned cc g0 W0 g W part GI0 J rk m l RO).
Qed.
Print Assumptions C66_alignment.

(** The table has no more columns with segmentation than without. *)
Theorem C66_fewer_columns : forall cc topo ratio c o t0 t, topo_ok topo -> good_sigla c -> o_near o = false ->
  collate cc topo ratio c (set_segmentation o false) = Ok (OTable t0) ->
  collate cc topo ratio c (set_segmentation o true) = Ok (OTable t) ->
  length (t_columns t) <= length (t_columns t0).
Proof.
  intros cc topo ratio c o t0 t TO GS On H0 H.
  destruct (collate_table_inv cc topo ratio c _ t0 H0) as [g0 [r0 [G0 T0]]]. destruct (collate_table_inv cc topo ratio c _ t H) as [g [r [G T]]].
  destruct (segmentation_spec cc topo ratio TO c o g0 r0 GS On G0) as [g' [r' [W0 [W [part [A [CA [GI0 [J _]]]]]]]]].
  assert (g' = g /\ r' = r) as [-> ->] by (split; congruence).
  pose proof (jo_graph _ _ _ _ _ _ J) as GI.
  assert (NW0 : W0 <> []). { apply (carries_nonempty c); [|assumption]. apply (collate_nonempty cc topo ratio c _ g0 r0 G0). }
  assert (NW : W <> []). { pose proof (jo_paths _ _ _ _ _ _ J) as F. intros ->. inversion F. congruence. }
  assert (R0 : exists rk m l, r0 = ranking_for rk m l /\ rank_ok g0 rk m l).
  { destruct (ranking_spec topo g0 W0 TO GI0) as [rk [m [l [_ [R1 R2]]]]]. exists rk, m, l. split; [|assumption].
    unfold collate_graph in G0. cbn [set_segmentation o_astar o_filter o_transp o_near o_segmentation] in G0. rewrite On in G0.
    apply bind_ok in G0 as [[ti g1] [_ G0]]. apply bind_ok in G0 as [rr [G1 G0]]. cbn [bind] in G0. assert (g1 = g0 /\ rr = r0) as [-> ->] by (split; congruence). congruence. }
  assert (R : exists rk m l, r = ranking_for rk m l /\ rank_ok g rk m l).
  { destruct (ranking_spec topo g W TO GI) as [rk [m [l [_ [R1 R2]]]]]. exists rk, m, l. split; [|assumption].
    unfold collate_graph in G. cbn [set_segmentation o_astar o_filter o_transp o_near o_segmentation] in G. rewrite On in G.
    apply bind_ok in G as [[ti g1] [_ G]]. apply bind_ok in G as [rr [_ G]]. cbn [bind] in G. apply bind_ok in G as [g2 [_ G]]. apply bind_ok in G as [r2 [G1 G]].
    assert (g2 = g /\ r2 = r) as [-> ->] by (split; congruence). congruence. }
  destruct R0 as [rk0 [m0 [l0 [-> RO0]]]]. destruct R as [rk [m [l [-> RO]]]].
  rewrite (table_spec g0 W0 rk0 m0 l0 GI0 RO0) in T0. rewrite (table_spec g W rk m l GI RO) in T. injection T0 as <-. injection T as <-.
  unfold the_table, table_ranks, ranks_table. cbn [t_columns]. rewrite !map_length.
  destruct (placed_ranks g W rk m l _ GI NW RO (base_placed g W rk m l GI NW RO rk m l RO)) as [P1 P2].
  destruct (placed_ranks g0 W0 rk0 m0 l0 _ GI0 NW0 RO0 (base_placed g0 W0 rk0 m0 l0 GI0 NW0 RO0 rk0 m0 l0 RO0)) as [Q1 Q2].
  rewrite <- (map_length fst (filter _ (by_rank (ranking_for rk m l)))), P1, <- (map_length fst (filter _ _)), Q1, !seq_length.
  pose proof (rank_end_max g W rk m l GI RO NW) as E. pose proof (rank_end_max g0 W0 rk0 m0 l0 GI0 RO0 NW0) as E0.
  destruct (longest g W rk m l GI RO NW v_end (end_In g W GI)) as [L1 _].
  destruct (path_back cc g0 W0 g W part J _ _ L1 (end_In g W GI)) as [n [Ln Pn]].
  apply (proj2 (longest g0 W0 rk0 m0 l0 GI0 RO0 NW0 v_end (end_In g0 W0 GI0))) in Pn. lia.
Qed.
Print Assumptions C66_fewer_columns.

(** The columns with segmentation need not be made of whole columns without it: here b and y share a column of
    the table without segmentation, but the segment that contains b and the one with y stand in different columns. *)
Definition branches : collation :=
  [words "A" ["s"; "a"; "b"; "c"; "t"]; words "B" ["s"; "x"; "y"; "t"]; words "C" ["s"; "x"; "t"]].

Theorem C66_columns_refuted : exists c t0 t, good_sigla c /\
  collate ascii_cc kahn sample_ratio c (set_segmentation (plain_options "table") false) = Ok (OTable t0) /\
  collate ascii_cc kahn sample_ratio c (set_segmentation (plain_options "table") true) = Ok (OTable t) /\
  same_column t0 (lit "A") (lit "b") (lit "B") (lit "y") /\ ~ same_column t (lit "A") (lit "b") (lit "B") (lit "y").
Proof.
  exists branches.
  destruct (collate ascii_cc kahn sample_ratio branches (set_segmentation (plain_options "table") false)) as [x|] eqn:E; [|exfalso; vm_compute in E; discriminate].
  destruct (collate ascii_cc kahn sample_ratio branches (set_segmentation (plain_options "table") true)) as [y|] eqn:E'; [|exfalso; vm_compute in E'; discriminate].
  vm_compute in E. injection E as <-. vm_compute in E'. injection E' as <-. eexists. eexists.
  split; [split; [repeat constructor; cbn; intuition discriminate|cbn; intuition discriminate]|].
  split; [reflexivity|]. split; [reflexivity|]. split.
  - unfold same_column. cbn [t_columns]. eexists. eexists. eexists. eexists. eexists.
    split; [right; right; left; reflexivity|]. split; [vm_compute; reflexivity|]. split; [left; reflexivity|]. split; [reflexivity|].
    split; [vm_compute; reflexivity|]. split; [left; reflexivity|]. reflexivity.
  - intros [col [ts [ts' [k [k' [I [A [A1 [A2 [B [B1 B2]]]]]]]]]]]. cbn [t_columns] in I.
    repeat (destruct I as [<-|I]; [vm_compute in A, B; try discriminate; injection A as <-; injection B as <-;
      cbn [In] in A1, B1; repeat (destruct A1 as [<-|A1]; [vm_compute in A2; try discriminate|]); try contradiction;
      repeat (destruct B1 as [<-|B1]; [vm_compute in B2; try discriminate|]); try contradiction|]). contradiction.
Qed.
Print Assumptions C66_columns_refuted.

(** Two witnesses: with segmentation there are fewer vertices and columns, and words stay aligned inside segments. *)
Example C66_example : exists g0 g t0 t, 
  collate ascii_cc kahn sample_ratio two_witnesses (set_segmentation (plain_options "graph") false) = Ok (OGraph g0) /\
  collate ascii_cc kahn sample_ratio two_witnesses (set_segmentation (plain_options "graph") true) = Ok (OGraph g) /\
  collate ascii_cc kahn sample_ratio two_witnesses (set_segmentation (plain_options "table") false) = Ok (OTable t0) /\
  collate ascii_cc kahn sample_ratio two_witnesses (set_segmentation (plain_options "table") true) = Ok (OTable t) /\
  length (g_verts g) < length (g_verts g0) /\ length (t_columns t) < length (t_columns t0) /\
  exists k k', aligned_at g (lit "A") k (lit "B") k' /\ tk_str k = lit "black".
Proof.
  destruct (collate ascii_cc kahn sample_ratio two_witnesses (set_segmentation (plain_options "graph") false)) as [x1|] eqn:E1; [|exfalso; vm_compute in E1; discriminate].
  destruct (collate ascii_cc kahn sample_ratio two_witnesses (set_segmentation (plain_options "graph") true)) as [x2|] eqn:E2; [|exfalso; vm_compute in E2; discriminate].
  destruct (collate ascii_cc kahn sample_ratio two_witnesses (set_segmentation (plain_options "table") false)) as [x3|] eqn:E3; [|exfalso; vm_compute in E3; discriminate].
  destruct (collate ascii_cc kahn sample_ratio two_witnesses (set_segmentation (plain_options "table") true)) as [x4|] eqn:E4; [|exfalso; vm_compute in E4; discriminate].
  vm_compute in E1, E2, E3, E4. injection E1 as <-. injection E2 as <-. injection E3 as <-. injection E4 as <-.
  do 4 eexists. split; [reflexivity|]. split; [reflexivity|]. split; [reflexivity|]. split; [reflexivity|]. split; [cbn; lia|]. split; [cbn; lia|].
  eexists. eexists. split; [|].
  - exists 2. eexists. eexists. eexists. exists 1. split; [vm_compute; reflexivity|]. split; [vm_compute; reflexivity|]. split; [vm_compute; reflexivity|]. split; [vm_compute; reflexivity|vm_compute; reflexivity].
  - reflexivity.
Qed.
