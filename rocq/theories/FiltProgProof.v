(** Collations with a filter that looks at the token to be aligned only, and the alignments of FiltProgSpec. *)
From Verif Require Import Py TokenModel SuffixModel IndexModel GraphModel AlignModel TableModel NearModel ExportModel CollateModel
  Lib GraphSpec GraphProof MergeProof RankProof AlignProof BlockProof SuffixProof FindProof IndexProof BlockText InstProof CubeProof
  AlignerProof CollateProof TableSpec TableProof CollateSpec JoinProof TopoProof ResultProof ErrorProof FactsProof OutputProof StageProof PlainProof NearProof NearTwoProof
  WalkSpec WalkProof WalkAlign WalkStage IdentProof DrawProof FilterProof PairSpec ChosenSpec ChosenProof PairProof GrowProof CommonProof ProgSpec ProgProof ProgTwo AnyProgSpec AnyProgProof FiltProgSpec.
From Coq Require Import Permutation Relations QArith Sorted.
Open Scope list_scope.
Open Scope nat_scope.

(** ** The matches with and without the filter *)
Section Cube.
  Variables (f : props_filter) (h : jdict -> bool).
  Hypothesis FH : forall d1 d2, f d1 d2 = h d1.
  Definition passes (t : token) : bool := match filtered_token_data t with Ok d => h d | Raise _ => false end.

  Lemma foldM_sim : forall {A B X} (R : A -> B -> Prop) (p : A -> X -> res A) (q : B -> X -> res B) l a b a', R a b ->
    (forall x a b a', In x l -> R a b -> p a x = Ok a' -> exists b', q b x = Ok b' /\ R a' b') ->
    foldM p l a = Ok a' -> exists b', foldM q l b = Ok b' /\ R a' b'.
  Proof.
    intros A B X R p q. induction l as [|x l IH]; intros a b a' H HS E; cbn [foldM] in *.
    - injection E as <-. eauto.
    - apply bind_ok in E as [a1 [E1 E2]]. destruct (HS x a b a1 (or_introl eq_refl) H E1) as [b1 [F1 F2]]. rewrite F1. cbn [bind].
      apply (IH a1 b1 a' F2); [|exact E2]. intros y a2 b2 a3 Hy. apply HS. right. exact Hy.
  Qed.

  Definition cut (ti : tindex) (start : nat) (m m0 : cube) : Prop :=
    (forall yx v t, dget coord_eqb yx m0 = Some (v, t) -> nth_error (ti_array ti) (Z.to_nat (fst yx + Z.of_nat start)) = Some t) /\
    forall yx, dget coord_eqb yx m = match dget coord_eqb yx m0 with Some (v, t) => if passes t then Some (v, t) else None | None => None end.

  Lemma step_cut : forall ti start varr rank wst gst i m m0 m', cut ti start m m0 -> cube_step ti start varr rank (Some f) wst gst m i = Ok m' ->
    exists m0', cube_step ti start varr rank None wst gst m0 i = Ok m0' /\ cut ti start m' m0'.
  Proof.
    intros ti start varr rank wst gst i m m0 m' [C1 C2] H. unfold cube_step in *.
    apply bind_ok in H as [ov [E1 H]]. rewrite E1. cbn [bind]. destruct ov as [v|]; [|discriminate H].
    apply bind_ok in H as [rk [E2 H]]. rewrite E2. cbn [bind]. apply bind_ok in H as [tok [E3 H]]. rewrite E3. cbn [bind].
    apply bind_ok in H as [ok [E4 H]]. apply bind_ok in E4 as [other [_ E4]]. apply bind_ok in E4 as [d1 [D1 E4]]. apply bind_ok in E4 as [d2 [_ E4]].
    apply ok_inj in E4. rewrite FH in E4. apply ok_inj in H. apply aget_ok in E3.
    assert (P : passes tok = ok) by (unfold passes; rewrite D1; exact E4).
    set (key := (Z.of_nat (wst + i) - Z.of_nat start, Z.of_nat rk - 1)%Z) in *.
    assert (K : Z.to_nat (fst key + Z.of_nat start) = wst + i) by (unfold key; cbn [fst]; lia).
    eexists. split; [reflexivity|]. split.
    - intros yx v' t' G. rewrite (dget_set _ coord_eqb_ok) in G. destruct (coord_eqb key yx) eqn:Q; [|eauto]. apply coord_eqb_ok in Q. subst yx. injection G as <- <-. rewrite K. exact E3.
    - intros yx. rewrite (dget_set _ coord_eqb_ok). destruct (coord_eqb key yx) eqn:Q.
      + apply coord_eqb_ok in Q. subst yx. rewrite P. subst m'. destruct ok.
        * rewrite (dget_set _ coord_eqb_ok), (eqb_refl' _ coord_eqb_ok). reflexivity.
        * rewrite C2. destruct (dget coord_eqb key m0) as [[v' t']|] eqn:G; [|reflexivity]. apply C1 in G. rewrite K in G. replace t' with tok by congruence. rewrite P. reflexivity.
      + subst m'. destruct ok; [rewrite (dget_set _ coord_eqb_ok), Q|]; apply C2.
  Qed.

  Lemma cube_cut : forall ti sg varr rank start m, start_token_position ti sg = Ok start -> match_cube ti sg varr rank (Some f) = Ok m ->
    exists m0, match_cube ti sg varr rank None = Ok m0 /\ cut ti start m m0.
  Proof.
    intros ti sg varr rank start m Hs H. unfold match_cube in *. rewrite Hs in *. cbn [bind] in *.
    revert H. apply foldM_sim; [split; [intros yx v t G; discriminate G|reflexivity]|].
    intros [wst b] m1 m2 m3 _ C E. unfold cube_instance in *. apply bind_ok in E as [all [E1 E]]. rewrite E1. cbn [bind].
    revert E. apply foldM_sim; [exact C|]. intros gst m4 m5 m6 _ C' E. revert E. apply foldM_sim; [exact C'|].
    intros i m7 m8 m9 _ C'' E. apply (step_cut _ _ _ _ _ _ _ _ _ _ C'' E).
  Qed.
End Cube.

(** ** One stage *)
Lemma meetings_ext : forall (M N : nat -> nat -> bool) y x ms, (forall y x, M y x = N y x) ->
  at_rank (walk M ms) = x -> at_token (walk M ms) = y ->
  (forall ms', at_rank (walk M ms') = x -> at_token (walk M ms') = y -> (points (walk M ms') <= points (walk M ms))%Z) -> preferred M ms ->
  met (walk N (snd (best_way N y x))) = met (walk M ms).
Proof.
  intros M N y x ms H R T B P. pose proof (walk_ext _ _ H) as EX. rewrite EX. do 2 f_equal.
  destruct (best_way_good N y x) as [E [Q [B' P']]]. pose proof E as [E1 E2]. symmetry. set (ms0 := snd (best_way N y x)) in *.
  assert (EN : ends N ms y x) by (split; rewrite <- EX; assumption).
  apply (one_way N ms ms0 y x); auto.
  - intros ms2 y2 x2 F1 F2. destruct F1 as [F1 F3], F2 as [F2 F4], EN as [EN1 EN2]. rewrite <- !EX in *. apply B; congruence.
  - intros before m after E0 m' SO other R' T'. rewrite <- !EX in *. apply (P before m after E0 m' SO other R' T').
Qed.

Section Runs.
  Variables (c : collation) (ti : tindex).
  Hypothesis IX : index_ok c ti.
  Hypothesis TX : index_text_ok ti.
  Hypothesis SG : ~ In [] (map w_sigil c).
  Variable topo : graph -> res (list vid).
  Hypothesis TO : topo_ok topo.
  Variables (f : props_filter) (h : jdict -> bool).
  Hypothesis FH : forall d1 d2, f d1 d2 = h d1.

  Definition marks_of (iw : iwitness) : marked_text := map (fun t => (tk_str t, passes h t)) (iw_toks iw).
  Lemma marks_words : forall iw, map fst (marks_of iw) = words_of iw.
  Proof. intros iw. unfold marks_of, words_of. rewrite map_map. reflexivity. Qed.

  Section Stage.
    Variables (done : list iwitness) (iw : iwitness) (rest : list iwitness) (st : astate) (W : list wpath) (A : alignment).
    Variables (rk : vid -> nat) (mm : nat) (l : list vid) (start : nat).
    Hypothesis DW : ti_wits ti = done ++ iw :: rest.
    Hypothesis AL : al_inv (Some f) ti done st W.
    Hypothesis TD : tied A (a_graph st) W.
    Hypothesis ON : on_threads A.
    Hypothesis RO : rank_ok (a_graph st) rk mm l.
    Hypothesis Hs : start_token_position ti (iw_sigil iw) = Ok start.
    Hypothesis HP : map tk_pos (iw_toks iw) = seq start (length (iw_toks iw)).
    Let g := a_graph st.
    Let ts := iw_toks iw.
    Let rank := by_vertex (ranking_for rk mm l).

    (** Without the filter every pair of a word and an equal word of the graph is a match. *)
    Lemma all_matches : forall m0, match_cube ti (iw_sigil iw) (a_varr st) rank None = Ok m0 ->
      forall y t v, 1 <= y -> nth_error ts (y - 1) = Some t -> In v (vertices g) -> on_vertex W v (tk_str t) -> cube_match ts m0 y (rk v) = true.
    Proof.
      intros m0 Hm y t v Y1 Ht Hv [wp [t1 [O1 [O2 O3]]]].
      assert (Hk : nth_error (ti_wits ti) (length done) = Some iw) by (rewrite DW, nth_error_app2, Nat.sub_diag by lia; reflexivity).
      assert (Hiw : In iw (ti_wits ti)) by (apply nth_error_In with (length done); assumption).
      pose proof (al_graph _ _ _ _ _ AL) as GI.
      assert (AV : at_vertex W (tk_pos t1) v) by (exists wp, t1; auto).
      destruct (at_vertex_tok c ti IX done (iw :: rest) W DW (al_paths _ _ _ _ _ AL) _ v AV) as [iw1 [t1' [Q0 [Q1 [Q2 [Q3 _]]]]]].
      assert (LT : tk_pos t1' < start).
      { destruct (ix_start c ti IX iw Hiw) as [p [P1 [P2 P3]]]. assert (p = start) by congruence. subst p.
        destruct (iw_toks iw) as [|u us] eqn:Eu; [congruence|].
        pose proof (ix_split c ti IX done iw rest DW iw1 t1' u Q0 Q1) as S. rewrite Eu in S. specialize (S (or_introl eq_refl)).
        simpl in P2. injection P2 as P2 _. lia. }
      pose proof Q3 as Q3'. rewrite <- Q2 in Q3'.
      assert (Ly : y - 1 < length ts) by (apply nth_error_Some; congruence).
      destruct (ix_tok_nth c ti IX iw start (y - 1) Hiw HP Ly) as [t2 [T1 [T2 T3]]].
      assert (t2 = t) by (unfold ts in Ht; congruence). subst t2.
      assert (t1' = t1).
      { destruct (Forall2_In_r _ _ _ _ (al_paths _ _ _ _ _ AL) O1) as [iw2 [D1 [D2 [pth [D3 D4]]]]].
        assert (In t1 (iw_toks iw2)). { rewrite D4 in O2. destruct (steps_single _ _ _ _ O2) as [? [E1 E2]]. congruence. }
        apply (ix_wit_unique c ti IX iw1 iw2 t1' t1); auto; apply (done_In ti done (iw :: rest) DW); assumption. }
      subst t1'.
      pose proof (cube_complete c ti IX TX start (a_varr st) _ None (length done) iw Hk Hs m0 eq_refl Hm (tk_pos t1) (start + (y - 1)) v (rk v) t1 t LT) as CC.
      unfold cube_match. replace (1 <=? y) with true by (symmetry; apply Nat.leb_le; lia).
      replace (y <=? length ts) with true by (symmetry; apply Nat.leb_le; lia).
      assert (rk v <> 0).
      { intros C. apply (rank_zero g W rk mm l GI RO (td_some _ _ _ TD) v Hv) in C. subst v.
        pose proof (gi_simple _ _ GI wp O1) as ND. unfold chain in ND. inversion ND as [|? ? NI _]; subst. apply NI. apply in_or_app. left.
        apply (in_map fst) in O2. exact O2. }
      replace (1 <=? rk v) with true by (symmetry; apply Nat.leb_le; lia). cbn [andb].
      unfold has_match. replace (Z.of_nat y - 1)%Z with (Z.of_nat (start + (y - 1)) - Z.of_nat start)%Z by lia.
      apply CC; auto.
      - apply (al_varr _ _ _ _ _ AL). assumption.
      - apply by_vertex_get with g; assumption.
      - apply nth_error_In with (y - 1). assumption.
    Qed.

    Lemma match_may : forall m path ms, match_cube ti (iw_sigil iw) (a_varr st) rank (Some f) = Ok m ->
      optimal_step (Some f) g rk W ts path (cube_match ts m) ms -> forall y x, cube_match ts m y x = may_fit A (marks_of iw) y x.
    Proof.
      intros m path ms Hm OS. destruct (cube_cut f h FH ti (iw_sigil iw) (a_varr st) rank start m Hs Hm) as [m0 [Hm0 [C1 C2]]].
      assert (Hiw : In iw (ti_wits ti)) by (rewrite DW; apply in_or_app; right; left; reflexivity).
      intros y x. apply eq_true_iff_eq. split.
      - intros EM. destruct (os_sound _ _ _ _ _ _ _ _ OS y x EM) as [t [v [Y [T [V [R O]]]]]]. apply (on_node A g W TD ON) in O as [n [-> E]].
        destruct (node_at A g W rk mm l TD ON RO n x _ E R) as [S1 S2]. destruct y as [|i]; [lia|]. replace (S i - 1) with i in T by lia.
        cbn [may_fit]. unfold marks_of. rewrite nth_error_map. fold ts. rewrite T. cbn [option_map]. apply andb_true_iff. split; [|apply existsb_exists; eauto].
        unfold cube_match in EM. rewrite !andb_true_iff, !Nat.leb_le in EM. destruct EM as [[[_ L] _] EM]. unfold has_match, dmem in EM.
        replace (Z.of_nat (S i) - 1)%Z with (Z.of_nat i) in EM by lia.
        destruct (dget coord_eqb (Z.of_nat i, Z.of_nat x - 1)%Z m) as [[v t']|] eqn:D; [|discriminate EM].
        destruct (cube_facts c ti (Some f) IX TX done iw rest st W rk mm l start m DW AL RO Hs HP Hm _ _ _ _ D) as [F1 _]; [fold ts; lia|]. fold ts in F1.
        assert (t' = t) by congruence. subst t'. rewrite C2 in D. destruct (dget coord_eqb (Z.of_nat i, Z.of_nat x - 1)%Z m0) as [[v0 t0]|]; [|discriminate D].
        destruct (passes h t0) eqn:P; [|discriminate D]. injection D as -> ->. exact P.
      - intros EF. destruct y as [|i]; [discriminate EF|]. cbn [may_fit] in EF. unfold marks_of in EF. rewrite nth_error_map in EF. fold ts in EF.
        destruct (nth_error ts i) as [t|] eqn:T; [|discriminate EF]. cbn [option_map] in EF. apply andb_true_iff in EF as [P EF].
        apply existsb_exists in EF as [n [N SN]]. apply stands_iff in SN as [S1 S2]. assert (L : n < length (node_words A)) by (apply nth_error_Some; congruence).
        rewrite (place_is_rank A g W rk mm l TD ON RO n L) in S1. subst x.
        assert (Li : i < length ts) by (apply nth_error_Some; congruence).
        assert (FM : cube_match ts m0 (S i) (rk (vx_of n)) = true).
        { apply (all_matches m0 Hm0 (S i) t); [lia|replace (S i - 1) with i by lia; exact T|apply (node_vertex A g W TD ON n); exact L|apply (on_node A g W TD ON); eauto]. }
        unfold cube_match in *. rewrite !andb_true_iff in *. destruct FM as [F1 F2]. split; [exact F1|]. unfold has_match, dmem in *. rewrite C2.
        destruct (dget coord_eqb (Z.of_nat (S i) - 1, Z.of_nat (rk (vx_of n)) - 1)%Z m0) as [[v0 t0]|] eqn:D; [|discriminate F2].
        apply C1 in D. cbn [fst] in D. replace (Z.to_nat (Z.of_nat (S i) - 1 + Z.of_nat start)) with (start + i) in D by lia.
        destruct (ix_tok_nth c ti IX iw start i Hiw HP Li) as [t2 [T1 [_ T3]]]. fold ts in T1. replace t0 with t by congruence. rewrite P. reflexivity.
    Qed.
  End Stage.

  Lemma rest_marked : forall rest done st W st' A texts, ti_wits ti = done ++ rest -> al_inv (Some f) ti done st W -> tied A (a_graph st) W -> on_threads A -> marked_one_by_one texts A ->
    foldM (next_step topo (Some f) false ti) rest st = Ok st' ->
    exists W' A', al_inv (Some f) ti (done ++ rest) st' W' /\ tied A' (a_graph st') W' /\ on_threads A' /\ marked_one_by_one (texts ++ map marks_of rest) A'.
  Proof.
    induction rest as [|iw rest IH]; intros done st W st' A texts DW AL TD ON OB H.
    - cbn [foldM] in H. injection H as <-. exists W, A. rewrite !app_nil_r. auto.
    - cbn [foldM] in H. apply bind_ok in H as [st1 [H1 H2]].
      destruct (step_cube c ti (Some f) IX TX SG topo TO done iw rest st W st1 DW (td_some _ _ _ TD) AL H1) as [rk [mm [l [path [m [ms [Hm [RO [AL' [OS [al [new [PA [AV MG]]]]]]]]]]]]]].
      pose proof (al_graph _ _ _ _ _ AL') as GI'.
      assert (NDp : NoDup path).
      { assert (NC : NoDup (chain (iw_sigil iw, steps (iw_toks iw) path))) by (apply (gi_simple _ _ GI'); apply in_or_app; right; left; reflexivity).
        unfold chain in NC. cbn [snd] in NC. rewrite (steps_fst _ _ (os_len _ _ _ _ _ _ _ _ OS)) in NC. inversion NC as [|? ? _ NC']; subst. apply NoDup_app_iff in NC'. apply NC'. }
      assert (Hiw : In iw (ti_wits ti)) by (rewrite DW; apply in_or_app; right; left; reflexivity).
      destruct (ix_start c ti IX iw Hiw) as [start [Hs [HP _]]].
      destruct (any_step A (a_graph st) W rk mm l TD ON RO (iw_toks iw) path _ ms al (Some f) OS NDp PA AV (a_graph st1) new (iw_sigil iw) MG GI') as [pick [PK [TD' ON']]].
      assert (EM : marked_meetings A (marks_of iw) = met (walk (cube_match (iw_toks iw) m) ms)).
      { unfold marked_meetings. apply meetings_ext.
        - apply (match_may done iw rest st W A rk mm l start DW AL TD ON RO Hs HP m path ms Hm OS).
        - rewrite (breadth_is_rank A (a_graph st) W rk mm l TD ON RO). apply (os_rank _ _ _ _ _ _ _ _ OS).
        - unfold marks_of. rewrite map_length. apply (os_token _ _ _ _ _ _ _ _ OS).
        - intros ms' R T. unfold marks_of in T. rewrite map_length in T. rewrite (breadth_is_rank A (a_graph st) W rk mm l TD ON RO) in R. apply (os_best _ _ _ _ _ _ _ _ OS ms' R T).
        - apply (os_first _ _ _ _ _ _ _ _ OS). }
      assert (EW : map tk_str (iw_toks iw) = map fst (marks_of iw)) by (symmetry; apply marks_words).
      rewrite <- EM, EW in PK, TD', ON'.
      assert (DW' : ti_wits ti = (done ++ [iw]) ++ rest) by (rewrite DW, <- app_assoc; reflexivity).
      destruct (IH (done ++ [iw]) st1 _ st' _ (texts ++ [marks_of iw]) DW' AL' TD' ON' (one_more_marked _ _ _ _ OB PK) H2) as [W' [A' [A1 [A2 [A3 A4]]]]].
      exists W', A'. rewrite <- !app_assoc in *. auto.
  Qed.
End Runs.

(** ** The whole collation *)
Lemma no_place : forall text, marked_meetings nothing text = [].
Proof.
  intros text. unfold marked_meetings. set (ms := snd _). destruct (met (walk (may_fit nothing text) ms)) as [|p r] eqn:E; [reflexivity|].
  assert (I : In p (met (walk (may_fit nothing text) ms))) by (rewrite E; left; reflexivity). apply (proj2 (walk_met _ ms)) in I as [I _].
  destruct (fst p) as [|i]; [discriminate I|]. cbn [may_fit] in I. destruct (nth_error text i) as [[s b]|]; [|discriminate I]. apply andb_true_iff in I as [_ I]. discriminate I.
Qed.
Lemma first_marked : forall text, marked_one_by_one [text] (add_text nothing (map fst text)).
Proof.
  intros text. replace (add_text nothing (map fst text)) with (add_picked nothing (map fst text) (marked_meetings nothing text) (fun _ => 0)).
  - apply (one_more_marked [] nothing text (fun _ => 0) no_marked). rewrite no_place. intros i s x _ [].
  - rewrite no_place. unfold add_picked, add_text. cbv zeta.
    replace (map (old_node nothing (map fst text)) (seq 0 (length (map fst text)))) with (map (picked_node [] (fun _ => 0)) (seq 0 (length (map fst text)))); [reflexivity|].
    apply map_ext. intros i. unfold picked_node, meets. cbn [existsb andb]. unfold old_node. destruct (nth_error _ i) as [s|]; [|reflexivity].
    destruct (List.find (fun p => fst p =? S i) (meetings nothing (map fst text))) as [[y x]|] eqn:F; [|reflexivity].
    apply find_some in F as [F _]. apply met_node in F as [? [? [n [_ [_ F]]]]]. apply stands_iff in F as [_ F]. destruct n; discriminate F.
Qed.

Lemma stamp_marks : forall h sg ts0 ts, Forall2 (came_from sg) ts0 ts -> (forall t, In t ts0 -> ~ In k_sigil (map fst (t0_data t)) /\ ~ In k_pos (map fst (t0_data t))) ->
  map (fun t => (tk_str t, passes h t)) ts = map (fun t => (t0_str t, h (t0_data t))) ts0.
Proof.
  intros h sg ts0 ts F. induction F as [|b t bs ts E F IH]; intros N; [reflexivity|]. cbn [map]. f_equal; [|apply IH; intros; apply N; right; assumption].
  destruct (N b (or_introl eq_refl)) as [N1 N2]. unfold passes. rewrite (user_data sg b t E N1 N2). destruct E as [-> _]. reflexivity.
Qed.
Lemma stamped_marks : forall h c pos, no_internal_keys c -> map (marks_of h) (stamped pos c) = map (marked h) c.
Proof.
  intros h c. induction c as [|w c IH]; intros pos NK; [reflexivity|]. cbn [stamped map]. f_equal.
  - unfold marks_of, marked. cbn [iw_toks]. apply (stamp_marks h (w_sigil w)); [apply stamp_came_from|]. intros t Ht. apply (NK w t (or_introl eq_refl) Ht).
  - apply IH. intros w' t Hw. apply NK. right. exact Hw.
Qed.

Theorem marked_collate : forall topo c b f h ti g, topo_ok topo -> good_sigla c -> no_internal_keys c -> (forall d1 d2, f d1 d2 = h d1) ->
  aligner_collate topo (Some f) b c = Ok (ti, g) ->
  exists A W, marked_one_by_one (map (marked h) c) A /\ tied A g W /\ on_threads A /\ Forall2 held c W.
Proof.
  intros topo c b f h ti g TO [ND NE] NK FH H.
  assert (H0 : aligner_collate topo (Some f) false c = Ok (ti, g)).
  { destruct b; [|assumption]. unfold aligner_collate in *. apply bind_ok in H as [ti' [P H]]. apply bind_ok in H as [st [A H]].
    rewrite P. cbn [bind]. rewrite (align_all_detect _ _ _ _ A). exact H. }
  clear H. unfold aligner_collate in H0. apply bind_ok in H0 as [ti' [P H]]. apply bind_ok in H as [st [A H]]. injection H as -> <-.
  pose proof (prepare_index_ok _ ti ND P) as IX. pose proof (prepare_text_ok _ ti P) as TX. pose proof (ix_wits _ _ IX) as WT.
  unfold align_all in A. destruct (ti_wits ti) as [|iw rest] eqn:E; [discriminate A|]. apply bind_ok in A as [st0 [F A]].
  destruct (first_tied c ti IX NE (Some f) iw rest st0 E F) as [W0 [B1 [B2 B3]]].
  pose proof (stamped_marks h c 0 NK) as SW. rewrite <- WT in SW. cbn [map] in SW.
  assert (E' : ti_wits ti = [iw] ++ rest) by exact E.
  assert (OB : marked_one_by_one [marks_of h iw] (add_text nothing (words_of iw))) by (rewrite <- (marks_words h iw); apply first_marked).
  destruct (rest_marked c ti IX TX NE topo TO f h FH rest [iw] st0 W0 st _ [marks_of h iw] E' B1 B2 B3 OB A) as [W [A' [D1 [D2 [D3 D4]]]]].
  exists A', W. rewrite <- SW. split; [exact D4|]. split; [exact D2|]. split; [exact D3|]. apply (stamped_held c 0). rewrite <- WT. exact (al_paths _ _ _ _ _ D1).
Qed.

Lemma marked_alignment : forall cc topo ratio c o f h out, topo_ok topo -> good_sigla c -> no_internal_keys c ->
  o_filter o = Some f -> (forall d1 d2, f d1 d2 = h d1) -> collate cc topo ratio c o = Ok out ->
  (exists t, out = OTable t) \/ (exists g, out = OGraph g) ->
  exists A, marked_one_by_one (map (marked h) c) A /\
    forall ti g0, aligner_collate topo (o_filter o) (o_transp o) c = Ok (ti, g0) -> exists W, tied A g0 W /\ on_threads A /\ Forall2 held c W.
Proof.
  intros cc topo ratio c o f h out TO G NK Hf FH H K. rewrite Hf.
  assert (HA : exists ti g, aligner_collate topo (Some f) (o_transp o) c = Ok (ti, g)).
  { assert (H1 : exists g r, collate_graph cc topo ratio c o = Ok (g, r)).
    { destruct K as [[t ->]|[g ->]].
      - destruct (collate_table_inv cc topo ratio _ o t H) as [g [r [H1 _]]]. eauto.
      - destruct (collate_graph_inv cc topo ratio _ o g H) as [r H1]. eauto. }
    destruct H1 as [g [r H1]]. unfold collate_graph in H1. apply bind_ok in H1 as [[ti g1] [HA _]]. rewrite Hf in HA. exists ti, g1. destruct (o_astar o); [discriminate HA|exact HA]. }
  destruct HA as [ti [g HA]]. destruct (marked_collate topo c _ f h ti g TO G NK FH HA) as [A [W [OB [TD [ON HE]]]]]. exists A. split; [exact OB|].
  intros ti' g' HA'. rewrite HA in HA'. injection HA' as <- <-. exists W. auto.
Qed.

(** ** The alignments *)
Lemma marked_spelled : forall texts A, marked_one_by_one texts A ->
  Forall2 (fun text th => map (nth_error (node_words A)) th = map Some (map fst text)) texts (threads A).
Proof.
  intros texts A H. assert (K : Forall2 (fun tx th => map (nth_error (node_words A)) th = map Some tx) (map (map fst) texts) (threads A)).
  { induction H as [|texts A text pick H IH PK]; [constructor|]. rewrite map_app. cbn [map]. apply picked_spelled; assumption. }
  revert K. generalize (threads A). clear. induction texts as [|tx texts IH]; intros l K; inversion K; subst; constructor; auto.
Qed.

Lemma best_way_ext : forall M M', (forall y x, M y x = M' y x) -> forall y x, best_way M y x = best_way M' y x.
Proof.
  intros M M' E. assert (AT : forall m y x r, and_then M m y x r = and_then M' m y x r).
  { intros m y x r. unfold and_then. assert (HE : is_hit M m y x = is_hit M' m y x) by (destruct m; cbn [is_hit]; rewrite ?E; reflexivity). rewrite HE. reflexivity. }
  induction y as [|y IH]; induction x as [|x IHx]; [reflexivity|..].
  - change (and_then M Omit 0 (S x) (best_way M 0 x) = and_then M' Omit 0 (S x) (best_way M' 0 x)). rewrite IHx, AT. reflexivity.
  - change (and_then M Add (S y) 0 (best_way M y 0) = and_then M' Add (S y) 0 (best_way M' y 0)). rewrite IH, AT. reflexivity.
  - change (unless_better (unless_better (and_then M Pair (S y) (S x) (best_way M y x)) (and_then M Omit (S y) (S x) (best_way M (S y) x))) (and_then M Add (S y) (S x) (best_way M y (S x))) =
      unless_better (unless_better (and_then M' Pair (S y) (S x) (best_way M' y x)) (and_then M' Omit (S y) (S x) (best_way M' (S y) x))) (and_then M' Add (S y) (S x) (best_way M' y (S x)))).
    rewrite IHx, !IH, !AT. reflexivity.
Qed.

Definition unmarked (text : list str) : marked_text := map (fun s => (s, true)) text.
Lemma unmarked_meetings : forall A text, marked_meetings A (unmarked text) = meetings A text.
Proof.
  intros A text. assert (FE : forall y x, may_fit A (unmarked text) y x = fits A text y x).
  { intros [|i] x; [reflexivity|]. cbn [may_fit fits]. unfold unmarked. rewrite nth_error_map. destruct (nth_error text i); reflexivity. }
  unfold marked_meetings, meetings. rewrite (walk_ext _ _ FE), (best_way_ext _ _ FE). unfold unmarked. rewrite map_length. reflexivity.
Qed.
Lemma unmarked_words : forall text, map fst (unmarked text) = text.
Proof. intros text. unfold unmarked. rewrite map_map. apply map_id. Qed.

Lemma marked_all : forall texts A, marked_one_by_one (map (map (fun s => (s, true))) texts) A <-> one_by_one texts A.
Proof.
  change (forall texts A, marked_one_by_one (map unmarked texts) A <-> one_by_one texts A).
  intros texts. induction texts as [|text texts IH] using rev_ind; intros A.
  - split; intros H; inversion H as [|t1 ? ? ? ? ? E]; try constructor; destruct t1; discriminate E.
  - rewrite map_app. cbn [map]. split; intros H.
    + inversion H as [E|t1 A1 x1 pick H1 H2 E]; [destruct (map unmarked texts); discriminate E|]. apply app_inj_tail in E as [-> ->]. apply IH in H1.
      rewrite unmarked_meetings, unmarked_words in *. apply one_more; assumption.
    + inversion H as [E|t1 A1 x1 pick H1 H2 E]; [destruct texts; discriminate E|]. apply app_inj_tail in E as [-> ->]. apply IH in H1.
      rewrite <- (unmarked_meetings A1 text) in *. rewrite <- (unmarked_words text) in H2 at 1. rewrite <- (unmarked_words text) at 2. apply one_more_marked; assumption.
Qed.

(** A word that must not be aligned is on no text before. *)
Lemma refused_new : forall texts A, marked_one_by_one texts A -> forall k text th i s n, nth_error texts k = Some text -> nth_error (threads A) k = Some th ->
  nth_error text i = Some (s, false) -> nth_error th i = Some n -> forall j th', j < k -> nth_error (threads A) j = Some th' -> ~ In n th'.
Proof.
  intros texts A H. induction H as [|texts A text pick H IH PK]; intros k tx th i s n K1 K2 K3 K4 j th' J1 J2; [destruct k; discriminate K1|].
  pose proof (marked_spelled _ _ H) as SP. assert (LE : length texts = length (threads A)) by exact (Forall2_len _ _ _ SP). unfold add_picked in K2, J2. cbv zeta in K2, J2. cbn [threads] in K2, J2.
  assert (KL : k < length (texts ++ [text])) by (apply nth_error_Some; congruence). rewrite app_length in KL. cbn [length] in KL.
  destruct (Nat.eq_dec k (length texts)) as [->|NK].
  - rewrite nth_error_app2, Nat.sub_diag in K1 by lia. injection K1 as <-. rewrite nth_error_app2 in K2 by lia. replace (length texts - length (threads A)) with 0 in K2 by lia. cbn [nth_error] in K2. injection K2 as <-.
    rewrite nth_error_app1 in J2 by lia. intros I. assert (LN : n < length (node_words A)).
    { destruct (Forall2_In_r _ _ _ _ SP (nth_error_In _ _ J2)) as [tx' [_ E]]. apply nth_error_Some. intros C. apply (in_map (nth_error (node_words A))) in I. rewrite E, C in I.
      apply in_map_iff in I as [? [Q _]]. discriminate Q. }
    set (L := map _ _) in K4. assert (T : nth_error (map fst text) i = Some s) by (rewrite nth_error_map, K3; reflexivity).
    destruct (with_new_word L (map fst text) _ i n s K4 T) as [Q|[_ [Q _]]]; [|lia]. unfold L in Q. apply nth_map in Q as [i' [Q1 Q2]].
    assert (Li : i < length (map fst text)) by (apply nth_error_Some; congruence). rewrite nth_error_seq in Q1 by exact Li. injection Q1 as <-. cbn [Nat.add] in Q2.
    unfold picked_node, meets in Q2. destruct (existsb (fun p => fst p =? S i) (marked_meetings A text)) eqn:EM; [|discriminate Q2].
    apply existsb_exists in EM as [[y x] [M1 M2]]. cbn [fst] in M2. apply Nat.eqb_eq in M2. subst y. unfold marked_meetings in M1.
    apply (proj2 (walk_met _ _)) in M1 as [M1 _]. cbn [fst snd may_fit] in M1. rewrite K3 in M1. discriminate M1.
  - rewrite nth_error_app1 in K1, K2, J2 by lia. exact (IH k tx th i s n K1 K2 K3 K4 j th' J1 J2).
Qed.
