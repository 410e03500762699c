(** C99: neighbouring columns cannot be put into one, and every token stands as far left as it can. *)
From Verif Require Import Py Lib TokenModel SuffixModel IndexModel GraphModel AlignModel TableModel NearModel ExportModel
  CollateModel GraphSpec CollateSpec TableSpec GraphProof MergeProof AlignerProof RankProof TableProof CollateProof IndexProof StageProof
  ResultProof FactsProof IdentProof NearProof ReadProof CommonProof PairProof ExportProof SegProof OutputProof Props_collate
  TopoProof Samples SizeSpec SizeProof Props_size Props_limits.
From Coq Require Import QArith String.
Open Scope list_scope.
Open Scope nat_scope.

(** Both ends of an edge between inner vertices lie on one path. *)
Lemma edge_row : forall g W rk m l u v, graph_of g W -> W <> [] -> rank_ok g rk m l -> edge g u v -> 1 <= rk u -> v <> v_end ->
  exists q us vs, In q W /\ In (u, us) (snd q) /\ In (v, vs) (snd q).
Proof.
  intros g W rk m l u v GI NW RO E R1 NE. assert (NS : u <> v_start) by (intros ->; rewrite (rank_start g W rk m l GI RO) in R1; lia).
  assert (NS2 : v <> v_start) by (intros ->; pose proof (ro_edge _ _ _ _ RO _ _ E) as Q; rewrite (rank_start g W rk m l GI RO) in Q; lia).
  assert (NE2 : u <> v_end).
  { intros ->. pose proof (ro_edge _ _ _ _ RO _ _ E) as Q. pose proof (rank_end_max g W rk m l GI RO NW) as M. destruct (graph_edge_verts g W _ _ GI E) as [_ V]. pose proof (ro_lt _ _ _ _ RO v V). lia. }
  apply (graph_edge_path g W u v GI) in E as [q [Hq P]]. pose proof (in_pairs_l _ _ _ P) as P1. pose proof (in_pairs_r _ _ _ P) as P2.
  unfold chain in P1, P2. assert (G : forall x, x <> v_start -> x <> v_end -> In x (v_start :: map fst (snd q) ++ [v_end]) -> exists xs, In (x, xs) (snd q)).
  { intros x N1 N2 [Q|Q]; [congruence|]. apply in_app_or in Q as [Q|[Q|[]]]; [|congruence]. apply in_map_iff in Q as [[x' xs] [Q1 Q2]]. cbn [fst] in Q1. subst x'. exists xs. exact Q2. }
  destruct (G u NS NE2 P1) as [us U]. destruct (G v NS2 NE P2) as [vs V]. exists q, us, vs. auto.
Qed.

(** Without near matching: wherever a word stands in a column other than the first one, some witness has the same word there
    and a word in the column before. *)
Theorem C99_far_left : forall cc topo ratio c o t, topo_ok topo -> good_sigla c -> o_near o = false -> collate cc topo ratio c o = Ok (OTable t) ->
  forall ro i ts, In ro (t_rows t) -> nth_error (r_cells ro) (S i) = Some (Some ts) ->
  exists ro' us ts', In ro' (t_rows t) /\ nth_error (r_cells ro') i = Some (Some us) /\ nth_error (r_cells ro') (S i) = Some (Some ts') /\ map tk_str ts' = map tk_str ts.
Proof.
  intros cc topo ratio c o t TO GS On H ro i ts Hro Hc.
  destruct (table_parts cc topo ratio TO c o t GS On H) as [g [W [rk [m [l [CG [GI [NW [CA [RO [-> [SAME _]]]]]]]]]]]].
  rewrite (rows_paths c W rk m l CA) in *. apply in_map_iff in Hro as [p [<- Hp]]. rewrite (row_cells g W rk m l GI RO NW _ p Hp) in Hc.
  assert (LT : S i < m - 2). { rewrite <- (seq_length (m - 2) 1), <- (map_length (cell_at rk p)). apply nth_error_Some. rewrite Hc. discriminate. }
  assert (CELL : forall q k, k < m - 2 -> In q W -> nth_error (map (cell_at rk q) (seq 1 (m - 2))) k = Some (cell_at rk q (S k))).
  { intros q k Hk _. apply map_nth_error. rewrite (nth_error_nth' _ 0) by (rewrite seq_length; exact Hk). rewrite seq_nth by exact Hk. reflexivity. }
  rewrite (CELL p (S i) LT Hp) in Hc. injection Hc as Hc. apply (cell_at_some g W rk m l p _ ts GI RO Hp) in Hc as [v [Hv Rv]].
  destruct (gi_on _ _ GI p v ts Hp Hv) as [V _]. pose proof (ro_eq _ _ _ _ RO v V) as Q. rewrite Rv in Q. symmetry in Q. apply rank_of_pos in Q as [u [E Ru]].
  assert (NE : v <> v_end) by (intros ->; pose proof (rank_end_max g W rk m l GI RO NW); lia).
  destruct (edge_row g W rk m l u v GI NW RO E) as [q [us [vs [Hq [Hu Hv']]]]]; [lia|exact NE|].
  exists (construct_row (t_columns (the_table W rk m l (map w_sigil c))) (fst q)), us, vs.
  split; [apply in_map_iff; exists q; split; [reflexivity|exact Hq]|]. rewrite (row_cells g W rk m l GI RO NW _ q Hq), !CELL by (assumption || lia).
  split; [f_equal; apply (cell_at_some g W rk m l q _ us GI RO Hq); exists u; split; assumption|].
  split; [f_equal; apply (cell_at_some g W rk m l q _ vs GI RO Hq); exists v; split; assumption|]. exact (SAME q p v vs ts Hq Hp Hv' Hv).
Qed.
Print Assumptions C99_far_left.

(** A vertex with a place fills the cell of its witness. *)
Lemma placed_filled : forall g W rk m l r sigla p v ts k, graph_of g W -> W <> [] -> rank_ok g rk m l -> placed g rk m r -> In p W -> In (v, ts) (snd p) ->
  dget Nat.eqb v (by_vertex r) = Some (S k) -> S k < m - 1 ->
  exists ts', nth_error (r_cells (construct_row (t_columns (wtable W sigla r)) (fst p))) k = Some (Some ts').
Proof.
  intros g W rk m l r sigla p v ts k GI NW RO PL Hp Hv D LT. destruct (placed_ranks g W rk m l r GI NW RO PL) as [PK M2].
  cbn [wtable t_columns construct_row r_cells]. set (L := filter (fun kv => existsb inner (snd kv)) (by_rank r)) in *.
  assert (LN : List.length L = m - 2) by (rewrite <- (map_length fst), PK; apply seq_length).
  destruct (nth_error L k) as [[q vs]|] eqn:EL; [|apply nth_error_None in EL; lia].
  pose proof (map_nth_error fst _ _ EL) as X. rewrite PK in X. cbn [fst] in X. pose proof (nth_error_nth _ _ 0 X) as Y. rewrite seq_nth in Y by lia. subst q.
  destruct (pd_at _ _ _ _ PL v _ D) as [_ [vs' [Q1 Q2]]].
  assert (D2 : dget Nat.eqb (1 + k) (by_rank r) = Some vs).
  { apply (In_dget _ nat_eqb_ok); [rewrite (pd_keys _ _ _ _ PL); apply seq_NoDup|]. apply nth_error_In in EL. apply filter_In in EL as [EL _]. exact EL. }
  change (1 + k) with (S k) in D2. rewrite Q1 in D2. injection D2 as <-.
  rewrite map_map, nth_error_map, EL. cbn [option_map snd wcol c_cells].
  destruct (dget str_eqb (fst p) (put_tokens [] (flat_map (tokens_on W) vs'))) as [ts'|] eqn:D3; [exists ts'; reflexivity|]. exfalso.
  apply (dget_None _ str_eqb_ok) in D3. apply D3. apply put_tokens_keys. right. apply in_map_iff. exists (fst p, ts). split; [reflexivity|].
  apply in_flat_map. exists v. split; [exact Q2|]. apply tokens_on_In. exists p. split; [exact Hp|]. split; [reflexivity|].
  apply (In_dget _ nat_eqb_ok); [apply (path_uniq g W GI); exact Hp|exact Hv].
Qed.

(** With every option: some witness has words in both of two neighbouring columns. *)
Theorem C99_not_wider : forall cc topo ratio c o t, topo_ok topo -> good_sigla c -> collate cc topo ratio c o = Ok (OTable t) ->
  forall i, S i < List.length (t_columns t) ->
  exists ro us ts, In ro (t_rows t) /\ nth_error (r_cells ro) i = Some (Some us) /\ nth_error (r_cells ro) (S i) = Some (Some ts).
Proof.
  intros cc topo ratio c o t TO GS H i Hi. destruct (o_near o) eqn:On.
  - destruct GS as [ND NG]. destruct (collate_table_inv cc topo ratio c o t H) as [g2 [r2 [H1 H2]]].
    unfold collate_graph in H1. apply bind_ok in H1 as [[ti g0] [A H1]]. apply bind_ok in H1 as [r1 [R H1]].
    destruct (o_astar o); [discriminate|]. apply bind_ok in H1 as [[g3 r3] [NM H1]]. rewrite On in NM. destruct (o_segmentation o); [discriminate|]. injection H1 as -> ->.
    destruct (aligner_spec _ _ _ _ _ _ TO ND NG A) as [IX [_ [st' [W [E [AL [NW CA]]]]]]].
    pose proof (al_graph _ _ _ _ _ AL) as GI. rewrite E in GI.
    destruct (ranking_spec topo g0 W TO GI) as [rk [m [l [_ [R1 RO]]]]]. rewrite R1 in R. injection R as <-.
    destruct (near_match_total g0 W rk m l GI NW RO topo ratio TO) as [g3 [r3 [N1 [N2 N3]]]]. rewrite NM in N1. injection N1 as <- <-. destruct N2 as [N2 _].
    destruct (placed_ranks g0 W rk m l r2 GI NW RO N3) as [PK M2].
    assert (RI : ranks_in (vertices g2) r2).
    { intros k vs I v Hv. assert (D : dget Nat.eqb k (by_rank r2) = Some vs) by (apply (In_dget _ nat_eqb_ok); [rewrite (pd_keys _ _ _ _ N3); apply seq_NoDup|exact I]).
      destruct (pd_lists _ _ _ _ N3 k vs D) as [_ B]. destruct (pd_at _ _ _ _ N3 v k (B v Hv)) as [Q _].
      change (vertices g2) with (vertices (without_near g2)). rewrite N2. exact Q. }
    assert (GN : graph_of (without_near g2) W) by (rewrite N2; exact GI).
    rewrite (table_weak g2 W GN _ r2 RI) in H2. injection H2 as <-.
    assert (LT : S i < m - 2). { cbn [wtable t_columns] in Hi. rewrite map_length in Hi. rewrite <- (map_length fst), PK, seq_length in Hi. exact Hi. }
    pose proof (rank_end_max g0 W rk m l GI RO NW) as EM.
    assert (PP : exists u v, pinned g0 rk u /\ pinned g0 rk v /\ edge g0 u v /\ rk u = S i /\ rk v = S (S i)).
    { destruct (pinned_rank g0 W rk m l GI NW RO (S (S i))) as [v [P Ev]]; [lia|]. pose proof (pinned_In g0 W rk GI v P) as V.
      pose proof (ro_eq _ _ _ _ RO v V) as Q. rewrite Ev in Q. symmetry in Q. apply rank_of_pos in Q as [u [Eu Ru]].
      exists u, v. split; [apply pin_step with v; [exact P|exact Eu|lia]|]. auto. }
    destruct PP as [u [v [Pu [Pv [Euv [Ru Rv]]]]]]. destruct (edge_row g0 W rk m l u v GI NW RO Euv) as [q [us [vs [Hq [Hu Hv]]]]]; [lia|intros ->; lia|].
    pose proof (pd_pinned _ _ _ _ N3 u Pu) as Du. pose proof (pd_pinned _ _ _ _ N3 v Pv) as Dv. rewrite Ru in Du. rewrite Rv in Dv.
    destruct (placed_filled g0 W rk m l r2 (map w_sigil c) q u us i GI NW RO N3 Hq Hu Du) as [us' U]; [lia|].
    destruct (placed_filled g0 W rk m l r2 (map w_sigil c) q v vs (S i) GI NW RO N3 Hq Hv Dv) as [vs' V]; [lia|].
    eexists. exists us', vs'. split; [|split; [exact U|exact V]]. cbn [wtable t_rows]. apply in_map_iff. exists (fst q). split; [reflexivity|].
    rewrite <- (carries_sigla c W CA). apply in_map. exact Hq.
  - destruct (C05_table_shape cc topo ratio c o t TO GS H) as [_ [_ FL]]. destruct (FL (S i) Hi) as [ro [ts [Hro E]]].
    destruct (C99_far_left cc topo ratio c o t TO GS On H ro i ts Hro E) as [ro' [us [ts' [A [B [C _]]]]]]. exists ro', us, ts'. auto.
Qed.
Print Assumptions C99_not_wider.

(** Near matching moves words to the right, away from the words before them: the condition in C99_far_left is needed. *)
Definition moved_right : collation := [words "A" ["a"; "xx"; "cats"; "z"]; words "B" ["a"; "cat"; "z"]]%string.
Theorem C99_near_refuted : exists c t ro i ts, good_sigla c /\ collate ascii_cc kahn sample_ratio c (near_options "table") = Ok (OTable t) /\
  In ro (t_rows t) /\ nth_error (r_cells ro) (S i) = Some (Some ts) /\
  ~ exists ro' us ts', In ro' (t_rows t) /\ nth_error (r_cells ro') i = Some (Some us) /\ nth_error (r_cells ro') (S i) = Some (Some ts') /\ map tk_str ts' = map tk_str ts.
Proof.
  exists moved_right. destruct (collate ascii_cc kahn sample_ratio moved_right (near_options "table")) as [x|] eqn:E; [|exfalso; vm_compute in E; discriminate].
  vm_compute in E. injection E as <-. eexists. eexists. exists 1. eexists. split.
  { split; [repeat constructor; cbn; intuition discriminate|cbn; intuition discriminate]. }
  split; [reflexivity|]. split; [right; left; reflexivity|]. split; [reflexivity|].
  intros [ro' [us [ts' [[<-|[<-|[]]] [A [B C]]]]]]; cbn in A, B; [injection B as <-; discriminate C|discriminate A].
Qed.
Print Assumptions C99_near_refuted.

(** The hypotheses are met: three witnesses, five columns. *)
Example C99_example : exists t, good_sigla three_witnesses /\ topo_ok kahn /\ collate ascii_cc kahn sample_ratio three_witnesses (plain_options "table") = Ok (OTable t) /\ 5 <= List.length (t_columns t).
Proof.
  eexists. split; [split; [repeat constructor; cbn; intuition discriminate|cbn; intuition discriminate]|]. split; [apply kahn_topo_ok|]. split; [vm_compute; reflexivity|cbn; lia].
Qed.
