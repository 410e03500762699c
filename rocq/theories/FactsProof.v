(** Consequences of [result_spec] in the vocabulary of CollateSpec. *)
From Verif Require Import Py TokenModel SuffixModel IndexModel GraphModel AlignModel TableModel NearModel ExportModel
  CollateModel Lib GraphSpec CollateSpec TokenProof GraphProof MergeProof RankProof TableSpec TableProof SuffixSpec SuffixProof IndexProof BlockText InstProof CubeProof
  AlignProof AlignerProof CollateProof JoinProof ResultProof ErrorProof.
From Coq Require Import Permutation Relations QArith.
Open Scope list_scope.
Open Scope nat_scope.

Lemma graph_made_of_paths : forall g W, W <> [] -> graph_of (without_near g) W -> made_of_paths g W.
Proof.
  intros g W NW GI. constructor.
  - apply (gi_simple _ _ GI).
  - intros v. split.
    + intros Hv. destruct (gi_cover _ _ GI v Hv) as [->|[->|[p [ts [Hp Hi]]]]]; auto. right. right. exists p. split; auto.
      unfold chain. right. apply in_or_app. left. apply (in_map fst) in Hi. assumption.
    + intros [->|[->|[p [Hp Hi]]]]; [apply (start_In _ _ GI)|apply (end_In _ _ GI)|].
      destruct Hi as [<-|Hi]; [apply (start_In _ _ GI)|]. apply in_app_or in Hi as [Hi|[<-|[]]]; [|apply (end_In _ _ GI)].
      apply in_map_iff in Hi as [[v' ts] [E Hi]]. cbn [fst] in E. subst v'. apply (gi_on _ _ GI p v ts Hp Hi).
  - intros u v. apply (graph_edge_path (without_near g) W u v GI).
  - intros v vx D sg ts. rewrite (gi_tokens _ _ GI v vx D), tokens_on_In. split.
    + intros [p [H1 [H2 H3]]]. exists p. split; [assumption|]. split; [cbn [fst] in H2; auto|]. apply (dget_In _ nat_eqb_ok) in H3. assumption.
    + intros [p [H1 [H2 H3]]]. exists p. split; [assumption|]. split; [cbn [fst]; auto|]. cbn [snd].
      apply (In_dget _ nat_eqb_ok); [|assumption]. apply (path_uniq (without_near g) W GI p H1).
  - intros v vx [E|E] D; subst v.
    + pose proof (gi_start _ _ GI) as S. cbn [g_verts without_near] in S. rewrite D in S. injection S as ->. reflexivity.
    + pose proof (gi_end _ _ GI) as S. cbn [g_verts without_near] in S. rewrite D in S. injection S as ->. reflexivity.
Qed.

Section Facts.
  Variables (cc : cclass) (topo : graph -> res (list vid)) (ratio : str -> str -> Q).
  Hypothesis TO : topo_ok topo.

  Lemma carries_nonempty : forall c W, c <> [] -> Forall2 carries c W -> W <> [].
  Proof. intros c W N F. destruct F; congruence. Qed.

  (** collate_graph succeeds only on a non-empty collation. *)
  Lemma collate_nonempty : forall c o g r, collate_graph cc topo ratio c o = Ok (g, r) -> c <> [].
  Proof.
    intros c o g r H E. subst c. unfold collate_graph in H. apply bind_ok in H as [[ti g1] [H1 _]].
    destruct (o_astar o); [discriminate|]. unfold aligner_collate in H1. rewrite prepare_none in H1. discriminate.
  Qed.

  Theorem graph_paths : forall c o g r, good_sigla c -> collate_graph cc topo ratio c o = Ok (g, r) ->
    exists W, Forall2 carries c W /\ made_of_paths g W /\
      (forall e, dget edge_eqb e (g_edges g) = match users W e with [] => None | l => Some (str_join (lit ", ") l) end).
  Proof.
    intros c o g r [ND NE] H. destruct (result_spec cc topo ratio TO c o g r ND NE H) as [ti [st [W0 [W [part RS]]]]].
    pose proof (jo_graph _ _ _ _ _ _ (rs_joined _ _ _ _ _ _ _ _ _ _ _ RS)) as GI.
    pose proof (rs_carries _ _ _ _ _ _ _ _ _ _ _ RS) as CA.
    exists W. split; [assumption|]. split.
    - apply graph_made_of_paths; [|assumption]. apply (carries_nonempty c); [|assumption]. apply (collate_nonempty c o g r H).
    - intros e. apply (gi_edges _ _ GI e).
  Qed.

  Theorem graph_acyclic : forall c o g r, good_sigla c -> collate_graph cc topo ratio c o = Ok (g, r) -> acyclic g.
  Proof.
    intros c o g r [ND NE] H. destruct (result_spec cc topo ratio TO c o g r ND NE H) as [ti [st [W0 [W [part RS]]]]].
    apply (gi_acyclic _ _ (jo_graph _ _ _ _ _ _ (rs_joined _ _ _ _ _ _ _ _ _ _ _ RS))).
  Qed.

  (** Readings on one vertex. *)
  Theorem vertex_readings : forall c o g r, good_sigla c -> collate_graph cc topo ratio c o = Ok (g, r) ->
    forall v vx, dget Nat.eqb v (g_verts g) = Some vx ->
    exists rd, (forall sg ts, In (sg, ts) (v_tokens vx) -> map tk_str ts = rd) /\
      (v <> v_start -> v <> v_end -> exists w ws, rd = w :: ws /\ v_label vx = fold_left (join_labels cc) ws w) /\
      (o_segmentation o = false -> v <> v_start -> v <> v_end -> rd = [v_label vx]).
  Proof.
    intros c o g r [ND NE] H v vx D. destruct (result_spec cc topo ratio TO c o g r ND NE H) as [ti [st [W0 [W [part RS]]]]].
    pose proof (rs_joined _ _ _ _ _ _ _ _ _ _ _ RS) as JO. pose proof (jo_graph _ _ _ _ _ _ JO) as GI.
    assert (Hv : In v (vertices (without_near g))) by (apply (dget_In _ nat_eqb_ok) in D; apply (in_map fst) in D; exact D).
    assert (LB : label_of (without_near g) v = v_label vx) by (unfold label_of; cbn [g_verts without_near]; rewrite D; reflexivity).
    exists (map (label_of (a_graph st)) (part v)). split; [|split].
    - intros sg ts Hi. rewrite (gi_tokens _ _ GI v vx D) in Hi. apply tokens_on_In in Hi as [p [H1 [H2 H3]]].
      apply (dget_In _ nat_eqb_ok) in H3. apply (joined_readings cc _ _ _ _ _ _ _ _ (rs_aligner _ _ _ _ _ _ _ _ _ _ _ RS) JO p v ts H1 H3).
    - intros _ _. destruct (jo_head _ _ _ _ _ _ JO v Hv) as [q E]. pose proof (jo_label _ _ _ _ _ _ JO v Hv) as L. rewrite E in *. cbn [tl map] in *.
      eexists. eexists. split; [reflexivity|]. rewrite <- LB, L. reflexivity.
    - intros S _ _. destruct (rs_plain _ _ _ _ _ _ _ _ _ _ _ RS S) as [P1 [P2 P3]]. rewrite P3. cbn [map]. f_equal. rewrite <- P1. assumption.
  Qed.

  Theorem ranks_longest : forall c o g r, good_sigla c -> o_near o = false -> collate_graph cc topo ratio c o = Ok (g, r) ->
    exists rk, longest_from_start g rk /\
      (forall v n, dget Nat.eqb v (by_vertex r) = Some n <-> In v (vertices g) /\ n = rk v) /\
      (forall u v, edge g u v -> rk u < rk v) /\ rk v_start = 0 /\
      (forall v, In v (vertices g) -> v <> v_end -> rk v < rk v_end) /\
      map fst (by_rank r) = seq 0 (S (rk v_end)) /\
      (forall k vs, In (k, vs) (by_rank r) -> vs <> [] /\ NoDup vs /\ forall v, In v vs <-> In v (vertices g) /\ rk v = k).
  Proof.
    intros c o g r [ND NE] Hn H. destruct (result_spec cc topo ratio TO c o g r ND NE H) as [ti [st [W0 [W [part RS]]]]].
    destruct (rs_near _ _ _ _ _ _ _ _ _ _ _ RS Hn) as [N0 [rk [m [l [RO E]]]]]. subst r.
    pose proof (jo_graph _ _ _ _ _ _ (rs_joined _ _ _ _ _ _ _ _ _ _ _ RS)) as GI.
    assert (NN : without_near g = g) by (destruct g; cbn in N0; subst; reflexivity). rewrite NN in GI.
    assert (WN : W <> []) by (apply (carries_nonempty c); [apply (collate_nonempty c o g _ H)|apply (rs_carries _ _ _ _ _ _ _ _ _ _ _ RS)]).
    exists rk. split; [apply (longest g W rk m l GI RO WN)|]. split; [|split; [|split; [|split; [|split]]]].
    - intros v n. split.
      + intros D. destruct (by_vertex_inv g rk m l v n RO D) as [A B]. auto.
      + intros [A ->]. apply (by_vertex_get g rk m l v RO A).
    - apply (ro_edge _ _ _ _ RO).
    - apply (rank_start g W rk m l GI RO).
    - apply (rank_le_end g W rk m l GI RO WN).
    - rewrite (rank_end_max g W rk m l GI RO WN). unfold ranking_for. cbn [by_rank]. rewrite map_map. cbn [fst]. apply map_id.
    - intros k vs Hi. destruct (ranks_vs g W rk m l GI RO k vs Hi) as [A B]. split; [|auto].
      unfold ranking_for in Hi. cbn [by_rank] in Hi. apply in_map_iff in Hi as [k' [Ek Hk]]. injection Ek as Ek _. subst k'.
      apply in_seq in Hk. destruct (ro_onto _ _ _ _ RO k) as [v [V1 V2]]; [lia|]. intros ->. apply (B v). auto.
  Qed.
End Facts.
