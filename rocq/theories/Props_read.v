(** A witness that can be read in the graph adds no vertex (C67). *)
From Verif Require Import Py Lib TokenModel SuffixModel IndexModel GraphModel AlignModel TableModel NearModel ExportModel
  CollateModel GraphSpec CollateSpec TableSpec GraphProof AlignerProof RankProof CollateProof IndexProof BlockText StageProof WalkSpec WalkProof WalkAlign
  WalkStage ResultProof IdentProof Props_collate GrowSpec GrowProof Props_grow CubeProof ReadSpec ReadProof TopoProof Samples.
From Coq Require Import QArith.
Open Scope list_scope.
Open Scope nat_scope.

Lemma stamped_at : forall c pos k iw w, nth_error (stamped pos c) k = Some iw -> nth_error c k = Some w ->
  iw_sigil iw = w_sigil w /\ map tk_str (iw_toks iw) = map t0_str (w_toks w).
Proof.
  induction c as [|w0 c IH]; intros pos k iw w H1 H2; destruct k as [|k]; try discriminate; cbn in H1, H2.
  - injection H1 as <-. injection H2 as <-. cbn [iw_sigil iw_toks]. split; [reflexivity|].
    generalize pos. induction (w_toks w0) as [|a ts IHt]; intros p; [reflexivity|]. cbn [stamp map]. rewrite IHt. reflexivity.
  - eauto.
Qed.

Lemma longest_same : forall g g' rk rk', longest_from_start g rk -> longest_from_start g rk' ->
  (forall v, In v (vertices g') <-> In v (vertices g)) -> longest_from_start g' rk -> longest_from_start g' rk'.
Proof.
  intros g g' rk rk' L L' V H v Hv. rewrite <- (longest_unique g rk rk' L L' v) by (apply V; assumption). apply H. assumption.
Qed.

(** The state before and after a witness that can be read in the graph. *)
Lemma read_stage : forall topo c k g g' w vs, topo_ok topo -> good_sigla c ->
  stage topo None c k = Ok g -> stage topo None c (S k) = Ok g' -> nth_error c (S k) = Some w ->
  reads_along g vs (map t0_str (w_toks w)) ->
  exists ti st st' W rk mm l (wp : wpath), prepare c = Ok ti /\ index_ok c ti /\ W <> [] /\ a_graph st = g /\ a_graph st' = g' /\
    al_inv None ti (firstn (S k) (ti_wits ti)) st W /\ rank_ok g rk mm l /\ fst wp = w_sigil w /\
    (exists done, al_inv None ti done st' (W ++ [wp])) /\
    (forall v, In v (vertices g') <-> In v (vertices g)) /\ longest_from_start g' rk.
Proof.
  intros topo c k g g' w vs TO GS H H' Hw RA.
  destruct (stage_state topo None c k g TO GS H) as [ti [st [W [P [IX [TX [NE [<- [AL NX]]]]]]]]].
  destruct (nth_error_lt_ex (ti_wits ti) (S k)) as [iw Hiw]. { rewrite (wits_length c ti IX). apply nth_error_Some. congruence. }
  destruct (NX g' iw H' Hiw) as [st' [ST <-]].
  assert (DW : ti_wits ti = firstn (S k) (ti_wits ti) ++ iw :: skipn (S (S k)) (ti_wits ti)).
  { rewrite <- (firstn_skipn (S k) (ti_wits ti)) at 1. f_equal. apply skipn_nth_error. assumption. }
  destruct GS as [ND NSG]. pose proof Hiw as Q. rewrite (ix_wits _ _ IX) in Q. destruct (stamped_at c 0 (S k) iw w Q Hw) as [E1 E2].
  rewrite <- E2 in RA.
  destruct (step_reads c ti IX TX NSG topo TO _ iw _ st W st' vs DW NE AL ST RA) as [rk [mm [l [wp [A1 [A2 [A3 [A4 A5]]]]]]]].
  exists ti, st, st', W, rk, mm, l, wp. rewrite <- E1. repeat (split; [assumption || reflexivity|]). split; [eauto|]. auto.
Qed.

(** C67: if the words of a witness can be read on a way through the graph, adding the witness makes no new vertex,
    and all vertices keep their ranks. *)
Theorem C67_no_new_vertices : forall topo c k g g' w vs, topo_ok topo -> good_sigla c ->
  stage topo None c k = Ok g -> stage topo None c (S k) = Ok g' -> nth_error c (S k) = Some w ->
  reads_along g vs (map t0_str (w_toks w)) ->
  (forall v, In v (vertices g') <-> In v (vertices g)) /\ (forall rk, longest_from_start g rk -> longest_from_start g' rk).
Proof.
  intros topo c k g g' w vs TO GS H H' Hw RA.
  destruct (read_stage topo c k g g' w vs TO GS H H' Hw RA) as [ti [st [st' [W [rk [mm [l [wp [P [IX [NW [<- [<- [AL [RO [_ [_ [V L]]]]]]]]]]]]]]]]]].
  split; [assumption|]. intros rk' L'. apply (longest_same (a_graph st) (a_graph st') rk rk'); try assumption.
  apply (longest _ W rk mm l (al_graph _ _ _ _ _ AL) RO NW).
Qed.
Print Assumptions C67_no_new_vertices.

(** The text of every earlier witness, and every excerpt of it, can be read in the graph. *)
Theorem C67_excerpt_reads : forall topo filt c k g w ss, topo_ok topo -> good_sigla c -> stage topo filt c k = Ok g ->
  In w (firstn (S k) c) -> excerpt ss (map t0_str (w_toks w)) -> exists vs, reads_along g vs ss.
Proof.
  intros topo filt c k g w ss TO GS H Hw X.
  destruct (stage_state topo filt c k g TO GS H) as [ti [st [W [P [IX [TX [NE [<- [AL _]]]]]]]]].
  apply In_nth_error in Hw as [i Hi].
  assert (Li : i < length (firstn (S k) c)) by (apply nth_error_Some; congruence). rewrite firstn_length in Li.
  assert (Hc : nth_error c i = Some w).
  { rewrite <- (firstn_skipn (S k) c), nth_error_app1 by (rewrite firstn_length; lia). assumption. }
  destruct (nth_error_lt_ex (ti_wits ti) i) as [iw Hiw]; [rewrite (wits_length c ti IX); lia|].
  pose proof Hiw as Q. rewrite (ix_wits _ _ IX) in Q. destruct (stamped_at c 0 i iw w Q Hc) as [E1 E2]. rewrite <- E2 in X.
  apply (excerpt_reads filt ti _ st W iw ss AL); [|assumption].
  apply nth_error_In with i. rewrite <- Hiw. rewrite <- (firstn_skipn (S k) (ti_wits ti)) at 2. rewrite nth_error_app1; [reflexivity|].
  rewrite firstn_length, (wits_length c ti IX). lia.
Qed.
Print Assumptions C67_excerpt_reads.

Lemma plain_result : forall cc topo ratio c o t, o_near o = false -> o_segmentation o = false -> o_transp o = false -> o_filter o = None ->
  collate cc topo ratio c o = Ok (OTable t) -> exists g r, stage topo None c (length c) = Ok g /\
    ranking_of topo g = Ok r /\ construct_table (map w_sigil c) g r = Ok t.
Proof.
  intros cc topo ratio c o t Hn Hs Ht Hf H. destruct (collate_table_inv cc topo ratio c o t H) as [g [r [H1 H2]]]. exists g, r.
  unfold collate_graph in H1. rewrite Hn, Hs, Ht, Hf in H1. apply bind_ok in H1 as [[ti g1] [A H1]]. destruct (o_astar o); [discriminate|].
  apply bind_ok in H1 as [rk [R H1]]. cbn [bind] in H1. injection H1 as -> ->. split; [|auto]. apply (stage_last topo None c ti g A).
Qed.

Lemma paths_sigla : forall iws W, Forall2 path_for iws W -> map fst W = map iw_sigil iws.
Proof. intros iws W F. induction F as [|iw wp iws W [H _] F IH]; [reflexivity|]. cbn [map]. congruence. Qed.

(** So the table of a collation to which a copy or an excerpt of one of its witnesses is added has the same columns;
    only the row of the new witness is added. *)
Theorem C67_table : forall cc topo ratio c w w0 o t t', topo_ok topo -> good_sigla (c ++ [w]) ->
  o_near o = false -> o_segmentation o = false -> o_transp o = false -> o_filter o = None ->
  collate cc topo ratio c o = Ok (OTable t) -> collate cc topo ratio (c ++ [w]) o = Ok (OTable t') ->
  (forall j gj, S j < length c -> stage topo None c j = Ok gj -> unambiguous gj) ->
  In w0 c -> excerpt (map t0_str (w_toks w)) (map t0_str (w_toks w0)) ->
  length (t_columns t') = length (t_columns t) /\
  exists r, t_rows t' = t_rows t ++ [r] /\ r_header r = w_sigil w /\
    forall i ts, nth_error (r_cells r) i = Some (Some ts) ->
      exists r0 ts0, In r0 (t_rows t) /\ nth_error (r_cells r0) i = Some (Some ts0) /\ map tk_str ts0 = map tk_str ts.
Proof.
  intros cc topo ratio c w w0 o t t' TO GS On Os Ot Of H H' U Hw0 X.
  destruct (plain_result cc topo ratio c o t On Os Ot Of H) as [g [r [S1 [R1 T1]]]].
  destruct (plain_result cc topo ratio (c ++ [w]) o t' On Os Ot Of H') as [g' [r' [S2 [R2 T2]]]].
  assert (GC : good_sigla c).
  { destruct GS as [A B]. rewrite map_app in A, B. split; [apply NoDup_app_iff in A; apply A|].
    intro I. apply B. apply in_or_app. left. assumption. }
  pose proof (stage_some _ _ _ _ _ S1) as NE. destruct (length c) as [|n] eqn:Lc; [destruct c; [congruence|discriminate]|].
  rewrite stage_more in S1 by (assumption || lia).
  assert (Lw : length (c ++ [w]) = S (S n)) by (rewrite app_length, Lc; cbn; lia).
  rewrite Lw, stage_more in S2 by (assumption || lia).
  destruct (stage_pred _ _ _ _ _ S2) as [g1 S3].
  assert (g = g1).
  { apply (stages_same topo c [] [w] n g g1 TO); rewrite ?app_nil_r; try assumption; [lia|].
    intros j gj Hj. rewrite ?app_nil_r. apply U. lia. }
  subst g1.
  assert (Hn : nth_error (c ++ [w]) (S n) = Some w) by (rewrite nth_error_app2, Lc, Nat.sub_diag by lia; reflexivity).
  assert (Fc : firstn (S n) (c ++ [w]) = c) by (rewrite firstn_app, Lc, Nat.sub_diag, firstn_O, app_nil_r; apply firstn_all2; lia).
  assert (Hf : In w0 (firstn (S n) (c ++ [w]))) by (rewrite Fc; assumption).
  destruct (C67_excerpt_reads topo None (c ++ [w]) n g w0 _ TO GS S3 Hf X) as [vs RA].
  destruct (read_stage topo (c ++ [w]) n g g' w vs TO GS S3 S2 Hn RA) as
    [ti [st [st' [W [rk [mm [l [wp [P [IX [NW [E1 [E2 [AL [RO [SW [[done AL'] [V LG]]]]]]]]]]]]]]]]]].
  pose proof (al_graph _ _ _ _ _ AL) as GI. rewrite E1 in GI. pose proof (al_graph _ _ _ _ _ AL') as GI'. rewrite E2 in GI'.
  destruct (ranking_spec topo g W TO GI) as [rk1 [m1 [l1 [_ [Q1 RO1]]]]]. rewrite Q1 in R1. injection R1 as <-.
  destruct (ranking_spec topo g' (W ++ [wp]) TO GI') as [rk2 [m2 [l2 [_ [Q2 RO2]]]]]. rewrite Q2 in R2. injection R2 as <-.
  assert (NW' : W ++ [wp] <> []) by (destruct W; discriminate).
  assert (RE : forall v, In v (vertices g) -> rk1 v = rk2 v).
  { intros v Hv. rewrite (longest_unique g rk1 rk (longest g W rk1 m1 l1 GI RO1 NW) (longest g W rk mm l GI RO NW) v Hv).
    apply (longest_unique g' rk rk2 LG (longest g' _ rk2 m2 l2 GI' RO2 NW')). apply V. assumption. }
  assert (EM : m1 = m2).
  { rewrite <- (rank_end_max g W rk1 m1 l1 GI RO1 NW), <- (rank_end_max g' _ rk2 m2 l2 GI' RO2 NW'), RE; [reflexivity|apply (end_In _ _ GI)]. }
  rewrite (table_spec g W rk1 m1 l1 GI RO1) in T1. injection T1 as <-.
  rewrite (table_spec g' _ rk2 m2 l2 GI' RO2) in T2. injection T2 as <-.
  assert (SGW : map fst W = map w_sigil c).
  { rewrite (paths_sigla _ _ (al_paths _ _ _ _ _ AL)), (ix_wits _ _ IX), <- firstn_map, stamped_sigla, firstn_map, Fc. reflexivity. }
  assert (IW : forall p, In p W -> In p (W ++ [wp])) by (intros; apply in_or_app; left; assumption).
  assert (IP : In wp (W ++ [wp])) by (apply in_or_app; right; left; reflexivity).
  assert (RWS : forall p, In p W -> construct_row (t_columns (the_table (W ++ [wp]) rk2 m2 l2 (map w_sigil (c ++ [w])))) (fst p) =
    construct_row (t_columns (the_table W rk1 m1 l1 (map w_sigil c))) (fst p)).
  { intros p Hp. pose proof (row_cells g W rk1 m1 l1 GI RO1 NW (map w_sigil c) p Hp) as C1.
    pose proof (row_cells g' _ rk2 m2 l2 GI' RO2 NW' (map w_sigil (c ++ [w])) p (IW p Hp)) as C2.
    unfold construct_row in *. cbn [r_cells] in *. f_equal. rewrite C1, C2, EM. apply map_ext. intros x. symmetry. apply cell_at_ext.
    intros v Hv. apply RE. apply in_map_iff in Hv as [[v' ts] [<- Hv]]. apply (gi_on _ _ GI p v' ts Hp Hv). }
  split; [rewrite (table_width g' _ rk2 m2 l2 GI' RO2 NW'), (table_width g W rk1 m1 l1 GI RO1 NW); lia|].
  exists (construct_row (t_columns (the_table (W ++ [wp]) rk2 m2 l2 (map w_sigil (c ++ [w])))) (w_sigil w)).
  split; [|split; [reflexivity|]].
  - unfold the_table at 1. cbn [t_rows]. rewrite map_app, map_app. cbn [map]. f_equal. unfold the_table at 1. cbn [t_rows].
    rewrite <- SGW, !map_map. apply map_ext_in. intros p Hp. specialize (RWS p Hp). rewrite map_app in RWS. unfold the_table in RWS.
    cbn [t_columns map] in RWS. rewrite <- SGW in RWS. exact RWS.
  - intros i ts Hi. rewrite <- SW in Hi. rewrite (row_cells g' _ rk2 m2 l2 GI' RO2 NW' _ wp IP) in Hi.
    assert (Li : i < m2 - 2). { rewrite <- (seq_length (m2 - 2) 1), <- (map_length (cell_at rk2 wp)). apply nth_error_Some. congruence. }
    assert (NS : nth_error (seq 1 (m2 - 2)) i = Some (S i)).
    { rewrite (nth_error_nth' _ 0) by (rewrite seq_length; assumption). rewrite seq_nth by assumption. reflexivity. }
    rewrite nth_error_map, NS in Hi. cbn [option_map] in Hi. injection Hi as Hi.
    apply (cell_at_some g' _ rk2 m2 l2 wp (S i) ts GI' RO2 IP) in Hi as [v [Hv Hr]].
    destruct (gi_on _ _ GI' wp v ts IP Hv) as [Vg' _]. apply V in Vg'.
    destruct (gi_cover _ _ GI v Vg') as [->|[->|[p [ts0 [Hp H0]]]]].
    { rewrite (rank_start g' _ rk2 m2 l2 GI' RO2) in Hr. discriminate. }
    { pose proof (rank_end_max g' _ rk2 m2 l2 GI' RO2 NW'). lia. }
    exists (construct_row (t_columns (the_table W rk1 m1 l1 (map w_sigil c))) (fst p)), ts0. split; [|split].
    + unfold the_table. cbn [t_rows]. apply in_map. rewrite <- SGW. apply in_map. assumption.
    + rewrite (row_cells g W rk1 m1 l1 GI RO1 NW _ p Hp), EM, nth_error_map, NS. cbn [option_map]. f_equal.
      apply (cell_at_some g W rk1 m1 l1 p (S i) ts0 GI RO1 Hp). exists v. split; [assumption|]. rewrite RE by assumption. assumption.
    + destruct (path_single _ _ _ v ts (al_paths _ _ _ _ _ AL') IP Hv) as [k ->]. destruct (path_single _ _ _ v ts0 (al_paths _ _ _ _ _ AL) Hp H0) as [k0 ->].
      destruct (al_label _ _ _ _ _ AL' wp v k IP Hv) as [vx [D1 D2]]. destruct (al_label _ _ _ _ _ AL' p v k0 (IW p Hp) H0) as [vx' [D3 D4]].
      cbn [map]. congruence.
Qed.
Print Assumptions C67_table.

(** This is about the alignment without segmentation: with it, an excerpt can split segments into more columns. *)
Theorem C67_segmentation_refuted : exists c w w0 t t', good_sigla (c ++ [w]) /\ In w0 c /\
  excerpt (map t0_str (w_toks w)) (map t0_str (w_toks w0)) /\
  collate ascii_cc kahn sample_ratio c (set_segmentation (plain_options "table") true) = Ok (OTable t) /\
  collate ascii_cc kahn sample_ratio (c ++ [w]) (set_segmentation (plain_options "table") true) = Ok (OTable t') /\
  length (t_columns t) < length (t_columns t').
Proof.
  exists [words "A" ["a"; "b"; "c"]; words "B" ["a"; "b"; "c"]], (words "C" ["a"; "c"]), (words "A" ["a"; "b"; "c"]).
  destruct (collate ascii_cc kahn sample_ratio [words "A" ["a"; "b"; "c"]; words "B" ["a"; "b"; "c"]] (set_segmentation (plain_options "table") true)) as [x|] eqn:E; [|exfalso; vm_compute in E; discriminate].
  destruct (collate ascii_cc kahn sample_ratio ([words "A" ["a"; "b"; "c"]; words "B" ["a"; "b"; "c"]] ++ [words "C" ["a"; "c"]]) (set_segmentation (plain_options "table") true)) as [y|] eqn:E'; [|exfalso; vm_compute in E'; discriminate].
  vm_compute in E. injection E as <-. vm_compute in E'. injection E' as <-. eexists. eexists.
  split; [split; [repeat constructor; cbn; intuition discriminate|cbn; intuition discriminate]|].
  split; [left; reflexivity|]. split; [cbn; repeat constructor|]. split; [reflexivity|]. split; [reflexivity|]. cbn. lia.
Qed.
Print Assumptions C67_segmentation_refuted.

(** The hypotheses of [C67_table] hold for two witnesses and an excerpt of the second. *)
Example C67_example : exists t t', let c := [words "A" ["the"; "black"; "cat"; "sat"]; words "B" ["the"; "white"; "cat"; "and"; "dog"]] in
  let w := words "C" ["the"; "cat"; "dog"] in
  good_sigla (c ++ [w]) /\
  collate ascii_cc kahn sample_ratio c (plain_options "table") = Ok (OTable t) /\
  collate ascii_cc kahn sample_ratio (c ++ [w]) (plain_options "table") = Ok (OTable t') /\
  (forall j gj, S j < length c -> stage kahn None c j = Ok gj -> unambiguous gj) /\
  excerpt (map t0_str (w_toks w)) (map t0_str (w_toks (words "B" ["the"; "white"; "cat"; "and"; "dog"]))) /\
  length (t_columns t') = 5.
Proof.
  cbv zeta. set (c := [words "A" ["the"; "black"; "cat"; "sat"]; words "B" ["the"; "white"; "cat"; "and"; "dog"]]).
  destruct (collate ascii_cc kahn sample_ratio c (plain_options "table")) as [x|] eqn:E; [|exfalso; vm_compute in E; discriminate].
  destruct (collate ascii_cc kahn sample_ratio (c ++ [words "C" ["the"; "cat"; "dog"]]) (plain_options "table")) as [y|] eqn:E'; [|exfalso; vm_compute in E'; discriminate].
  vm_compute in E. injection E as <-. vm_compute in E'. injection E' as <-. eexists. eexists.
  split; [split; [repeat constructor; cbn; intuition discriminate|cbn; intuition discriminate]|].
  split; [reflexivity|]. split; [reflexivity|]. split; [|split; [cbn; repeat constructor|reflexivity]].
  intros j gj Hj Sj. cbn in Hj. assert (j = 0) by lia. subst j.
  apply (first_stage_unambiguous kahn None c gj kahn_topo_ok); [|assumption].
  split; [repeat constructor; cbn; intuition discriminate|cbn; intuition discriminate].
Qed.
