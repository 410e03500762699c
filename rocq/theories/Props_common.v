(** Words that all witnesses share at the end (C72) or at the beginning (C73) are aligned. *)
From Verif Require Import Py Lib TokenModel SuffixModel IndexModel GraphModel AlignModel TableModel NearModel ExportModel
  CollateModel GraphSpec CollateSpec TableSpec GraphProof AlignerProof RankProof CollateProof IndexProof StageProof WalkSpec
  WalkStage ResultProof IdentProof Props_collate ReadProof TopoProof Samples PairSpec CommonSpec CommonProof JoinProof CommonSegProof MergeProof.
From Coq Require Import QArith.
Open Scope list_scope.
Open Scope nat_scope.

Lemma plain_graph : forall cc topo ratio c o g r, o_near o = false -> o_segmentation o = false -> o_filter o = None ->
  collate_graph cc topo ratio c o = Ok (g, r) -> stage topo None c (length c) = Ok g /\ ranking_of topo g = Ok r.
Proof.
  intros cc topo ratio c o g r Hn Hs Hf H.
  unfold collate_graph in H. rewrite Hn, Hs, Hf in H. apply bind_ok in H as [[ti g1] [A H]]. destruct (o_astar o); [discriminate|].
  apply bind_ok in H as [rk [R H]]. cbn [bind] in H. injection H as -> ->. split; [|assumption]. apply (stage_last topo None c ti g).
  destruct (o_transp o); [|assumption]. unfold aligner_collate in *. apply bind_ok in A as [ti' [P A]]. apply bind_ok in A as [st [B A]].
  rewrite P. cbn [bind]. rewrite (align_all_detect _ _ _ _ B). exact A.
Qed.

(** C72: words that all witnesses have at their end, and that do not stand twice in a row, fill the last columns. *)
Theorem C72_ending : forall cc topo ratio c o u t, topo_ok topo -> good_sigla c -> o_near o = false -> o_segmentation o = false -> o_filter o = None ->
  (forall w, In w c -> exists before, PairSpec.readings w = before ++ u) ->
  (forall w s, In w (tl c) -> In s u -> not_doubled s (PairSpec.readings w)) ->
  collate cc topo ratio c o = Ok (OTable t) ->
  length u <= length (t_columns t) /\
  forall i s, nth_error u i = Some s -> agreed_column t (length (t_columns t) - length u + i) s.
Proof.
  intros cc topo ratio c o u t TO GS On Os Of HU ND H. destruct (collate_table_inv cc topo ratio c o t H) as [g [r [H1 H2]]].
  destruct (plain_graph cc topo ratio c o g r On Os Of H1) as [St R].
  destruct (common_end_stage topo c u (length c) g TO GS HU ND St) as [W [vs [GI [NW [AN [LV SG]]]]]].
  rewrite firstn_all2 in SG by (rewrite map_length; lia).
  destruct (ranking_spec topo g W TO GI) as [rk [m [l [_ [R1 RO]]]]]. rewrite R1 in R. injection R as <-.
  rewrite (table_spec g W rk m l GI RO) in H2. injection H2 as <-. rewrite <- SG.
  rewrite (table_width g W rk m l GI RO NW).
  assert (T : forall wp, In wp W -> exists pre, map fst (snd wp) = pre ++ vs).
  { intros wp Hw. destruct (AN wp Hw) as [ts' [path' [E [L [p1 [p2 [? [? [E1 [_ [_ [_ E2]]]]]]]]]]]]. exists p1. rewrite E, MergeProof.steps_fst by assumption.
    rewrite E1, (E2 eq_refl), app_nil_r. reflexivity. }
  pose proof (tail_at g W rk m l GI NW RO vs T) as TA. pose proof (tail_only g W rk m l GI NW RO vs T) as TU.
  pose proof (anchor_vertex g W rk m l GI NW RO false true vs u AN LV) as AV. pose proof (rank_end_max g W rk m l GI RO NW) as RM.
  assert (LE : length u <= m - 2).
  { destruct u as [|s u]; [cbn; lia|]. destruct (nth_error_lt_ex vs 0) as [v Hv]; [cbn in LV; lia|]. pose proof (TA _ _ Hv). destruct (AV _ _ Hv) as [_ [_ [_ ?]]]. lia. }
  split; [assumption|]. intros i s Hs. assert (Li : i < length u) by (apply nth_error_Some; congruence).
    destruct (nth_error_lt_ex vs i) as [v Hv]; [lia|]. pose proof (TA _ _ Hv). destruct (AV _ _ Hv) as [V1 [V2 [V3 V4]]].
    replace (m - 2 - length u + i) with (rk v - 1) by lia.
    apply (anchored_column g W rk m l GI NW RO false true vs u AN LV i v s Hv Hs).
    intros w Hw Rw. assert (NE : w <> v_end) by (intros ->; lia). pose proof (TU w Hw NE ltac:(lia)) as Q. rewrite Rw in Q.
    replace (rk v + length vs - rk v_end) with i in Q by lia. congruence.
Qed.
Print Assumptions C72_ending.

(** C73: words that all witnesses have at their beginning, and that do not recur, fill the first columns. *)
Theorem C73_beginning : forall cc topo ratio c o u t, topo_ok topo -> good_sigla c -> o_near o = false -> o_segmentation o = false -> o_filter o = None ->
  (forall w, In w c -> exists after, PairSpec.readings w = u ++ after) ->
  (forall w s, In w c -> In s u -> unrepeated s (PairSpec.readings w)) ->
  collate cc topo ratio c o = Ok (OTable t) ->
  forall i s, nth_error u i = Some s -> agreed_column t i s.
Proof.
  intros cc topo ratio c o u t TO GS On Os Of HU ND H. destruct (collate_table_inv cc topo ratio c o t H) as [g [r [H1 H2]]].
  destruct (plain_graph cc topo ratio c o g r On Os Of H1) as [St R].
  destruct (common_start_stage topo c u (length c) g TO GS HU ND St) as [W [vs [GI [NW [AN [LV SG]]]]]].
  rewrite firstn_all2 in SG by (rewrite map_length; lia).
  destruct (ranking_spec topo g W TO GI) as [rk [m [l [_ [R1 RO]]]]]. rewrite R1 in R. injection R as <-.
  rewrite (table_spec g W rk m l GI RO) in H2. injection H2 as <-. rewrite <- SG.
  assert (T : forall wp, In wp W -> exists post, map fst (snd wp) = vs ++ post).
  { intros wp Hw. destruct (AN wp Hw) as [ts' [path' [E [L [p1 [p2 [? [? [E1 [_ [_ [E2 _]]]]]]]]]]]]. exists p2. rewrite E, MergeProof.steps_fst by assumption.
    rewrite E1, (E2 eq_refl). reflexivity. }
  pose proof (head_rank g W rk m l GI NW RO vs T) as TA. pose proof (head_only g W rk m l GI NW RO vs T) as TU.
  intros i s Hs. assert (Li : i < length u) by (apply nth_error_Some; congruence).
  destruct (nth_error_lt_ex vs i) as [v Hv]; [lia|]. pose proof (TA (S i) v Hv) as R.
  pose proof (anchored_column g W rk m l GI NW RO true false vs u AN LV i v s Hv Hs) as Q. rewrite R in Q. replace (S i - 1) with i in Q by lia. apply Q.
  intros w Hw Rw. pose proof (TU w Hw ltac:(lia)) as X. rewrite Rw in X. cbn [nth_error] in X. congruence.
Qed.
Print Assumptions C73_beginning.

Lemma segmented_graph : forall cc topo ratio c o g r, o_near o = false -> o_segmentation o = true -> o_filter o = None ->
  collate_graph cc topo ratio c o = Ok (g, r) -> exists g0, stage topo None c (length c) = Ok g0 /\ join cc g0 = Ok g /\ ranking_of topo g = Ok r.
Proof.
  intros cc topo ratio c o g r Hn Hs Hf H.
  unfold collate_graph in H. rewrite Hn, Hs, Hf in H. apply bind_ok in H as [[ti g1] [A H]]. destruct (o_astar o); [discriminate|].
  apply bind_ok in H as [rk [R H]]. cbn [bind] in H. apply bind_ok in H as [g2 [J H]]. apply bind_ok in H as [r2 [R2 H]]. injection H as -> ->.
  exists g1. split; [|auto]. apply (stage_last topo None c ti g1).
  destruct (o_transp o); [|assumption]. unfold aligner_collate in *. apply bind_ok in A as [ti' [P A]]. apply bind_ok in A as [st [B A]].
  rewrite P. cbn [bind]. rewrite (align_all_detect _ _ _ _ B). exact A.
Qed.

(** With segmentation the words of a common ending stand in the last column, at the end of the segment of every witness. *)
Theorem C72_segmented : forall cc topo ratio c o u t, topo_ok topo -> good_sigla c -> o_near o = false -> o_segmentation o = true -> o_filter o = None ->
  u <> [] -> (forall w, In w c -> exists before, PairSpec.readings w = before ++ u) ->
  (forall w s, In w (tl c) -> In s u -> not_doubled s (PairSpec.readings w)) ->
  collate cc topo ratio c o = Ok (OTable t) ->
  1 <= length (t_columns t) /\ agreed_segment t (length (t_columns t) - 1) (fun ws => exists before, ws = before ++ u).
Proof.
  intros cc topo ratio c o u t TO GS On Os Of NU HU ND H. destruct (collate_table_inv cc topo ratio c o t H) as [g [r [H1 H2]]].
  destruct (segmented_graph cc topo ratio c o g r On Os Of H1) as [g0 [St [JN R]]].
  destruct (common_end_stage topo c u (length c) g0 TO GS HU ND St) as [W0 [vs [GI0 [NW0 [AN [LV SG]]]]]].
  rewrite firstn_all2 in SG by (rewrite map_length; lia).
  assert (ONE : one_token W0).
  { intros p v ts Hp Ht. destruct (AN p Hp) as [ts' [pa [E _]]]. rewrite E in Ht. apply steps_single in Ht as [x [-> _]]. reflexivity. }
  destruct (join_spec cc g0 W0 GI0 ONE) as [g' [W [part [J1 [J MX]]]]]. rewrite JN in J1. injection J1 as <-.
  pose proof (jo_graph _ _ _ _ _ _ J) as GI.
  destruct (ranking_spec topo g0 W0 TO GI0) as [rk0 [m0 [l0 [_ [_ RO0]]]]].
  destruct (ranking_spec topo g W TO GI) as [rk [m [l [_ [R1 RO]]]]]. rewrite R1 in R. injection R as <-.
  assert (NV : vs <> []) by (intros ->; destruct u; [congruence|discriminate]).
  assert (SW : map fst W = map fst W0). { pose proof (jo_paths _ _ _ _ _ _ J) as F. clear - F. induction F as [|p0 p W0 W [A _] F IH]; [reflexivity|]. cbn [map]. congruence. }
  rewrite (table_spec g W rk m l GI RO) in H2. injection H2 as <-. rewrite <- SG, <- SW.
  rewrite (table_width g W rk m l GI RO (seg_nonempty cc g0 W0 g W part NW0 J)).
  apply (seg_end_column cc g0 W0 g W part GI0 NW0 J MX rk0 m0 l0 RO0 false true vs u AN LV NV rk m l RO eq_refl).
Qed.
Print Assumptions C72_segmented.

(** With segmentation the words of a common beginning stand in the first column. *)
Theorem C73_segmented : forall cc topo ratio c o u t, topo_ok topo -> good_sigla c -> o_near o = false -> o_segmentation o = true -> o_filter o = None ->
  u <> [] -> (forall w, In w c -> exists after, PairSpec.readings w = u ++ after) ->
  (forall w s, In w c -> In s u -> unrepeated s (PairSpec.readings w)) ->
  collate cc topo ratio c o = Ok (OTable t) ->
  agreed_segment t 0 (fun ws => exists after, ws = u ++ after).
Proof.
  intros cc topo ratio c o u t TO GS On Os Of NU HU ND H. destruct (collate_table_inv cc topo ratio c o t H) as [g [r [H1 H2]]].
  destruct (segmented_graph cc topo ratio c o g r On Os Of H1) as [g0 [St [JN R]]].
  destruct (common_start_stage topo c u (length c) g0 TO GS HU ND St) as [W0 [vs [GI0 [NW0 [AN [LV SG]]]]]].
  rewrite firstn_all2 in SG by (rewrite map_length; lia).
  assert (ONE : one_token W0).
  { intros p v ts Hp Ht. destruct (AN p Hp) as [ts' [pa [E _]]]. rewrite E in Ht. apply steps_single in Ht as [x [-> _]]. reflexivity. }
  destruct (join_spec cc g0 W0 GI0 ONE) as [g' [W [part [J1 [J MX]]]]]. rewrite JN in J1. injection J1 as <-.
  pose proof (jo_graph _ _ _ _ _ _ J) as GI.
  destruct (ranking_spec topo g0 W0 TO GI0) as [rk0 [m0 [l0 [_ [_ RO0]]]]].
  destruct (ranking_spec topo g W TO GI) as [rk [m [l [_ [R1 RO]]]]]. rewrite R1 in R. injection R as <-.
  assert (NV : vs <> []) by (intros ->; destruct u; [congruence|discriminate]).
  assert (SW : map fst W = map fst W0). { pose proof (jo_paths _ _ _ _ _ _ J) as F. clear - F. induction F as [|p0 p W0 W [A _] F IH]; [reflexivity|]. cbn [map]. congruence. }
  rewrite (table_spec g W rk m l GI RO) in H2. injection H2 as <-. rewrite <- SG, <- SW.
  apply (seg_start_column cc g0 W0 g W part GI0 NW0 J MX rk0 m0 l0 RO0 true false vs u AN LV NV rk m l RO eq_refl).
Qed.
Print Assumptions C73_segmented.

(** A doubled word at the end need not be aligned: the last of three [a] in a row of B is not paired with the [a] that ends A. *)
Definition doubled_end : collation := [words "A" ["a"]; words "B" ["a"; "a"; "a"; "c"; "a"]].
Theorem C72_doubled_refuted : exists c u t, good_sigla c /\ (forall w, In w c -> exists before, PairSpec.readings w = before ++ u) /\ u <> [] /\
  collate ascii_cc kahn sample_ratio c (plain_options "table") = Ok (OTable t) /\
  exists s, nth_error u 0 = Some s /\ ~ agreed_column t (length (t_columns t) - length u + 0) s.
Proof.
  exists doubled_end, [lit "a"].
  destruct (collate ascii_cc kahn sample_ratio doubled_end (plain_options "table")) as [x|] eqn:E; [|exfalso; vm_compute in E; discriminate].
  vm_compute in E. injection E as <-. eexists.
  split; [split; [repeat constructor; cbn; intuition discriminate|cbn; intuition discriminate]|].
  split; [intros w [<-|[<-|[]]]; [exists []|exists (map lit ["a"; "a"; "a"; "c"])]; reflexivity|]. split; [discriminate|]. split; [reflexivity|].
  exists (lit "a"). split; [reflexivity|]. intros [col [A [B _]]]. vm_compute in A. injection A as <-. discriminate.
Qed.
Print Assumptions C72_doubled_refuted.

(** A word at the beginning that recurs need not be aligned there. *)
Definition recurring_start : collation := [words "A" ["x"; "a"; "x"]; words "B" ["x"]].
Theorem C73_recurring_refuted : exists c u t, good_sigla c /\ (forall w, In w c -> exists after, PairSpec.readings w = u ++ after) /\
  (forall w s, In w c -> In s u -> not_doubled s (PairSpec.readings w)) /\
  collate ascii_cc kahn sample_ratio c (plain_options "table") = Ok (OTable t) /\
  exists s, nth_error u 0 = Some s /\ ~ agreed_column t 0 s.
Proof.
  exists recurring_start, [lit "x"].
  destruct (collate ascii_cc kahn sample_ratio recurring_start (plain_options "table")) as [x|] eqn:E; [|exfalso; vm_compute in E; discriminate].
  vm_compute in E. injection E as <-. eexists.
  split; [split; [repeat constructor; cbn; intuition discriminate|cbn; intuition discriminate]|].
  split; [intros w [<-|[<-|[]]]; [exists (map lit ["a"; "x"])|exists []]; reflexivity|].
  split; [intros w s [<-|[<-|[]]] [<-|[]] [|[|[|[|i]]]]; vm_compute; discriminate|]. split; [reflexivity|].
  exists (lit "x"). split; [reflexivity|]. intros [col [A [B _]]]. vm_compute in A. injection A as <-. discriminate.
Qed.
Print Assumptions C73_recurring_refuted.

(** Three witnesses with a common beginning and a common ending, without and with segmentation. *)
Definition framed : collation := [words "A" ["in"; "the"; "dark"; "cold"; "night"; "he"; "sat"]; words "B" ["in"; "the"; "night"; "he"; "sat"];
  words "C" ["in"; "the"; "cold"; "and"; "long"; "night"; "he"; "sat"]].
Lemma framed_good : good_sigla framed /\
  (forall w, In w framed -> exists before, PairSpec.readings w = before ++ map lit ["night"; "he"; "sat"]) /\
  (forall w s, In w (tl framed) -> In s (map lit ["night"; "he"; "sat"]) -> not_doubled s (PairSpec.readings w)) /\
  (forall w, In w framed -> exists after, PairSpec.readings w = map lit ["in"; "the"] ++ after) /\
  (forall w s, In w framed -> In s (map lit ["in"; "the"]) -> unrepeated s (PairSpec.readings w)).
Proof.
  split; [split; [repeat constructor; cbn; intuition discriminate|cbn; intuition discriminate]|].
  split; [intros w [<-|[<-|[<-|[]]]]; [exists (map lit ["in"; "the"; "dark"; "cold"])|exists (map lit ["in"; "the"])|exists (map lit ["in"; "the"; "cold"; "and"; "long"])]; reflexivity|].
  split; [intros w s [<-|[<-|[]]] [<-|[<-|[<-|[]]]] [|[|[|[|[|[|[|[|[|i]]]]]]]]]; vm_compute; discriminate|].
  split; [intros w [<-|[<-|[<-|[]]]]; eexists; reflexivity|].
  intros w s [<-|[<-|[<-|[]]]] [<-|[<-|[]]] [|[|[|[|[|[|[|[|[|i]]]]]]]]] [|[|[|[|[|[|[|[|[|j]]]]]]]]]; vm_compute; congruence.
Qed.

Example C72_example : exists t t', collate ascii_cc kahn sample_ratio framed (plain_options "table") = Ok (OTable t) /\
  length (t_columns t) = 9 /\ agreed_column t 6 (lit "night") /\ agreed_column t 8 (lit "sat") /\ agreed_column t 0 (lit "in") /\ agreed_column t 1 (lit "the") /\
  collate ascii_cc kahn sample_ratio framed (set_segmentation (plain_options "table") true) = Ok (OTable t') /\ length (t_columns t') = 5 /\
  agreed_segment t' 0 (fun ws => exists after, ws = map lit ["in"; "the"] ++ after) /\
  agreed_segment t' 4 (fun ws => exists before, ws = before ++ map lit ["night"; "he"; "sat"]).
Proof.
  assert (N1 : map lit ["in"; "the"] <> []) by discriminate. assert (N2 : map lit ["night"; "he"; "sat"] <> []) by discriminate.
  destruct framed_good as [GS [H1 [H2 [H3 H4]]]].
  assert (X : exists t, collate ascii_cc kahn sample_ratio framed (plain_options "table") = Ok (OTable t) /\ length (t_columns t) = 9).
  { destruct (collate ascii_cc kahn sample_ratio framed (plain_options "table")) as [x|] eqn:E; [|exfalso; vm_compute in E; discriminate].
    vm_compute in E. injection E as <-. eexists. split; reflexivity. }
  assert (Y : exists t, collate ascii_cc kahn sample_ratio framed (set_segmentation (plain_options "table") true) = Ok (OTable t) /\ length (t_columns t) = 5).
  { destruct (collate ascii_cc kahn sample_ratio framed (set_segmentation (plain_options "table") true)) as [x|] eqn:E; [|exfalso; vm_compute in E; discriminate].
    vm_compute in E. injection E as <-. eexists. split; reflexivity. }
  destruct X as [t [X1 X2]]. destruct Y as [t' [Y1 Y2]]. exists t, t'.
  destruct (C72_ending ascii_cc kahn sample_ratio framed (plain_options "table") _ t kahn_topo_ok GS eq_refl eq_refl eq_refl H1 H2 X1) as [_ Q]. rewrite X2 in Q.
  pose proof (C73_beginning ascii_cc kahn sample_ratio framed (plain_options "table") _ t kahn_topo_ok GS eq_refl eq_refl eq_refl H3 H4 X1) as Q3.
  split; [assumption|]. split; [assumption|]. split; [exact (Q 0 _ eq_refl)|]. split; [exact (Q 2 _ eq_refl)|]. split; [exact (Q3 0 _ eq_refl)|]. split; [exact (Q3 1 _ eq_refl)|].
  split; [assumption|]. split; [assumption|]. split.
  - apply (C73_segmented ascii_cc kahn sample_ratio framed (set_segmentation (plain_options "table") true) _ t' kahn_topo_ok GS eq_refl eq_refl eq_refl N1 H3 H4 Y1).
  - destruct (C72_segmented ascii_cc kahn sample_ratio framed (set_segmentation (plain_options "table") true) _ t' kahn_topo_ok GS eq_refl eq_refl eq_refl N2 H1 H2 Y1) as [_ Z].
    rewrite Y2 in Z. exact Z.
Qed.
