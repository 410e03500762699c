(** One step of the collation: the new witness is aligned along an optimal walk. *)
From Verif Require Import Py Lib TokenModel SuffixModel IndexModel GraphModel AlignModel GraphSpec SuffixSpec
  GraphProof MergeProof RankProof TableModel TableSpec AlignProof IndexProof BlockText InstProof CubeProof AlignerProof CollateProof CollateSpec StageProof
  WalkSpec WalkProof WalkAlign.
From Coq Require Import Sorted.
Open Scope list_scope.
Open Scope nat_scope.

Lemma assign_old : forall aligned ts nx i t v, nth_error ts i = Some t -> nth_error (assign aligned nx ts) i = Some v -> v < nx ->
  dget Nat.eqb (tk_pos t) aligned = Some v.
Proof.
  intros aligned. induction ts as [|a l IH]; intros nx i t v H1 H2 L; [destruct i; discriminate|]. destruct i as [|i]; simpl in *.
  - injection H1 as ->. destruct (dget Nat.eqb (tk_pos t) aligned); simpl in H2; [congruence|]. injection H2 as <-. lia.
  - destruct (dget Nat.eqb (tk_pos a) aligned); simpl in H2; apply IH with (t := t) in H2; auto; lia.
Qed.

Lemma next_step_merge : forall topo filt ti st iw st' rk mm l m al, ranking_of topo (a_graph st) = Ok (ranking_for rk mm l) -> rank_ok (a_graph st) rk mm l ->
  match_cube ti (iw_sigil iw) (a_varr st) (by_vertex (ranking_for rk mm l)) filt = Ok m ->
  align_matching_tokens m (fill_table m (mm - 1) (length (iw_toks iw))) = Ok al ->
  next_step topo filt false ti st iw = Ok st' -> exists new, merge (a_graph st) (iw_sigil iw) (iw_toks iw) al = Ok (a_graph st', new).
Proof.
  intros topo filt ti st iw st' rk mm l m al RK RO Hm A H. unfold next_step in H. rewrite RK in H. cbn [bind] in H.
  rewrite (ranks_ok _ rk mm l RO) in H. cbn [bind] in H. rewrite (rank_count _ rk mm l RO), Hm in H. cbn [bind] in H.
  rewrite A in H. cbn [bind] in H. apply bind_ok in H as [[g' new] [M H]]. apply bind_ok in H as [r [_ H]].
  apply bind_ok in H as [w [_ H]]. apply bind_ok in H as [va [_ H]]. injection H as <-. exists new. exact M.
Qed.

Section Step.
  Variables (c : collation) (ti : tindex) (filt : option props_filter).
  Hypothesis IX : index_ok c ti.
  Hypothesis TX : index_text_ok ti.
  Hypothesis SG : ~ In [] (map w_sigil c).
  Variable topo : graph -> res (list vid).
  Hypothesis TO : topo_ok topo.

  Lemma cube_rows : forall k iw start varr rank m, nth_error (ti_wits ti) k = Some iw -> start_token_position ti (iw_sigil iw) = Ok start ->
    match_cube ti (iw_sigil iw) varr rank filt = Ok m -> forall yx vt, dget coord_eqb yx m = Some vt -> (0 <= fst yx)%Z.
  Proof.
    intros k iw start varr rank m Hk Hs H. unfold match_cube in H. rewrite Hs in H. cbn [bind] in H.
    apply (foldM_ok_inv _ (fun _ m => forall yx vt, dget coord_eqb yx m = Some vt -> (0 <= fst yx)%Z) _ _ _ H).
    - intros yx vt E. discriminate.
    - intros _ [wst b] m0 m1 Hi E IH. apply (inst_in c ti IX) in Hi as [Hb [ps [Hps [Hw Hsg]]]].
      pose proof (start_pos c ti IX _ _ _ Hk Hs) as SP. destruct (sigil_owner c ti IX _ _ _ Hk Hsg) as [O1 _]. rewrite <- SP in O1.
      unfold cube_instance in E. rewrite Hps in E. cbn [bind] in E.
      apply (foldM_ok_inv _ (fun _ m => forall yx vt, dget coord_eqb yx m = Some vt -> (0 <= fst yx)%Z) _ _ _ E); [exact IH|].
      intros _ gst m2 m3 Hg E2 IH2.
      apply (foldM_ok_inv _ (fun _ m => forall yx vt, dget coord_eqb yx m = Some vt -> (0 <= fst yx)%Z) _ _ _ E2); [exact IH2|].
      intros _ i m4 m5 Hi E3 IH3 yx vt G. unfold cube_step in E3.
      apply bind_ok in E3 as [ov [_ E3]]. destruct ov as [v|]; [|discriminate].
      apply bind_ok in E3 as [rk [_ E3]]. apply bind_ok in E3 as [tok [_ E3]]. apply bind_ok in E3 as [ok [_ E3]].
      injection E3 as <-. destruct ok; [|eauto]. rewrite (dget_set _ coord_eqb_ok) in G.
      destruct (coord_eqb _ yx) eqn:Q; [|eauto]. apply coord_eqb_ok in Q. subst yx. cbn [fst]. lia.
  Qed.

  (** A token of a processed witness on the vertex [v] is compared as [s]. *)
  Definition on_vertex (W : list wpath) (v : vid) (s : str) : Prop :=
    exists wp t, In wp W /\ In (v, [t]) (snd wp) /\ tk_str t = s.

  Record optimal_step (g : graph) (rk : vid -> nat) (W : list wpath) (ts : list token) (path : list vid)
      (M : nat -> nat -> bool) (ms : list move) : Prop := {
    os_len : length path = length ts;
    os_sound : forall y x, M y x = true -> exists t v, 1 <= y /\ nth_error ts (y - 1) = Some t /\ In v (vertices g) /\ rk v = x /\
      on_vertex W v (tk_str t);
    os_complete : filt = None -> forall y x t v, 1 <= y -> nth_error ts (y - 1) = Some t -> In v (vertices g) -> rk v = x ->
      on_vertex W v (tk_str t) -> M y x = true;
    os_rank : at_rank (walk M ms) = rk v_end - 1;
    os_token : at_token (walk M ms) = length ts;
    os_best : forall ms', at_rank (walk M ms') = rk v_end - 1 -> at_token (walk M ms') = length ts ->
       (points (walk M ms') <= points (walk M ms))%Z;
    os_aligned : forall i v t, nth_error path i = Some v -> nth_error ts i = Some t -> In v (vertices g) ->
      In (S i, rk v) (met (walk M ms)) /\ on_vertex W v (tk_str t);
    os_met : forall y x, In (y, x) (met (walk M ms)) -> exists y' v t t', y <= y' /\ In (y', x) (met (walk M ms)) /\
      nth_error path (y' - 1) = Some v /\ In v (vertices g) /\ rk v = x /\ 1 <= y /\
      nth_error ts (y - 1) = Some t /\ nth_error ts (y' - 1) = Some t' /\ tk_str t = tk_str t';
    os_first : preferred M ms
  }.

  Theorem step_cube : forall done iw rest st W st', ti_wits ti = done ++ iw :: rest -> W <> [] ->
    al_inv filt ti done st W -> next_step topo filt false ti st iw = Ok st' ->
    exists rk mm l path m ms, match_cube ti (iw_sigil iw) (a_varr st) (by_vertex (ranking_for rk mm l)) filt = Ok m /\ let M := cube_match (iw_toks iw) m in rank_ok (a_graph st) rk mm l /\
      al_inv filt ti (done ++ [iw]) st' (W ++ [(iw_sigil iw, steps (iw_toks iw) path)]) /\
      optimal_step (a_graph st) rk W (iw_toks iw) path M ms /\
      exists al new, path = assign al (g_next (a_graph st)) (iw_toks iw) /\
        (forall t v, In t (iw_toks iw) -> dget Nat.eqb (tk_pos t) al = Some v -> In v (vertices (a_graph st))) /\
        merge (a_graph st) (iw_sigil iw) (iw_toks iw) al = Ok (a_graph st', new).
  Proof.
    intros done iw rest st W st' DW NE AL H.
    destruct (next_step_inv c ti filt IX TX SG topo TO done iw rest st W DW NE AL) as [rk [mm [l [start [RK [RO [Hs [HP N]]]]]]]].
    destruct (next_step_cube ti filt topo st iw st' _ RK H) as [m Hm].
    destruct (N m Hm) as [al [A1 [st2 [N1 N2]]]]. rewrite H in N1. injection N1 as <-.
    pose proof (cube_facts c ti filt IX TX done iw rest st W rk mm l start m DW AL RO Hs HP Hm) as CF.
    assert (Hk : nth_error (ti_wits ti) (length done) = Some iw).
    { rewrite DW, nth_error_app2, Nat.sub_diag by lia. reflexivity. }
    assert (Hiw : In iw (ti_wits ti)) by (apply nth_error_In with (length done); assumption).
    pose proof (al_graph _ _ _ _ _ AL) as GI. set (g := a_graph st) in *. set (ts := iw_toks iw) in *.
    destruct (align_walk g W rk mm l ts start m GI RO NE HP) as [al' [ms [B1 [B2 [B3 [B4 [B5 [B6 B7]]]]]]]].
    { intros y x v t D L. destruct (CF y x v t D L) as [F1 [F2 [F3 [F4 [F5 _]]]]]. auto. }
    { apply (cube_rows _ iw start _ _ m Hk Hs Hm). }
    rewrite A1 in B1. injection B1 as <-.
    set (path := assign al (g_next g) ts) in *.
    exists rk, mm, l, path, m, ms. split; [exact Hm|]. cbv zeta. split; [assumption|]. split; [assumption|].
    assert (SR : forall y x v t, dget coord_eqb (Z.of_nat y, x) m = Some (v, t) -> y < length ts -> on_vertex W v (tk_str t) /\ nth_error ts y = Some t).
    { intros y x v t D L. destruct (CF y x v t D L) as [F1 [F2 [F3 [F4 [F5 [p1 [t1 [F6 [F7 [F8 _]]]]]]]]]]. split; [|assumption].
      destruct (at_vertex_tok c ti IX done (iw :: rest) W DW (al_paths _ _ _ _ _ AL) p1 v F6) as [iw1 [t1' [_ [_ [_ [Q1 [wp [Q2 Q3]]]]]]]].
      exists wp, t1'. split; [assumption|]. split; [assumption|]. congruence. }
    split; [|destruct (next_step_merge topo filt ti st iw st' rk mm l m al RK RO Hm A1 H) as [new MG]; exists al, new; split; [reflexivity|split; [|exact MG]]].
    2:{ intros t v Ht D. apply In_nth_error in Ht as [i Ht]. assert (Li : i < length ts) by (apply nth_error_Some; intros Q; fold ts in Ht; rewrite Q in Ht; discriminate Ht).
      rewrite (tok_pos_nth ts start HP i t Ht) in D. destruct (B5 i v D) as [_ [t' D2]]. apply (CF _ _ _ _ D2 Li). }
    constructor.
    - apply assign_length.
    - intros y x H1. unfold cube_match in H1. rewrite !andb_true_iff, !Nat.leb_le in H1. destruct H1 as [[[Y1 Y2] X1] H1].
      unfold has_match, dmem in H1. destruct (dget coord_eqb (Z.of_nat y - 1, Z.of_nat x - 1)%Z m) as [[v t]|] eqn:D; [|discriminate].
      replace (Z.of_nat y - 1)%Z with (Z.of_nat (y - 1)) in D by lia.
      destruct (CF _ _ _ _ D) as [F1 [F2 [F3 [F4 [F5 F6]]]]]; [lia|]. destruct (SR _ _ _ _ D) as [G1 G2]; [lia|].
      exists t, v. split; [assumption|]. split; [assumption|]. split; [assumption|]. split; [lia|assumption].
    - intros Hf y x t v Y1 Ht Hv Hr [wp [t1 [O1 [O2 O3]]]].
      assert (AV : at_vertex W (tk_pos t1) v) by (exists wp, t1; auto).
      destruct (at_vertex_tok c ti IX done (iw :: rest) W DW (al_paths _ _ _ _ _ AL) _ v AV) as [iw1 [t1' [Q0 [Q1 [Q2 [Q3 _]]]]]].
      assert (LT : tk_pos t1' < start).
      { destruct (ix_start c ti IX iw Hiw) as [p [P1 [P2 P3]]]. assert (p = start) by congruence. subst p.
        destruct (iw_toks iw) as [|u us] eqn:Eu; [congruence|].
        pose proof (ix_split c ti IX done iw rest DW iw1 t1' u Q0 Q1) as S. rewrite Eu in S. specialize (S (or_introl eq_refl)).
        simpl in P2. injection P2 as P2 _. lia. }
      pose proof Q3 as Q3'. rewrite <- Q2 in Q3'.
      assert (Ly : y - 1 < length ts) by (apply nth_error_Some; congruence).
      destruct (ix_tok_nth c ti IX iw start (y - 1) Hiw HP Ly) as [t2 [T1 [T2 T3]]].
      assert (t2 = t) by (unfold ts in Ht; congruence). subst t2.
      assert (t1' = t1).
      { destruct (Forall2_In_r _ _ _ _ (al_paths _ _ _ _ _ AL) O1) as [iw2 [D1 [D2 [pth [D3 D4]]]]].
        assert (In t1 (iw_toks iw2)). { rewrite D4 in O2. destruct (steps_single _ _ _ _ O2) as [? [E1 E2]]. congruence. }
        apply (ix_wit_unique c ti IX iw1 iw2 t1' t1); auto; apply (done_In ti done (iw :: rest) DW); assumption. }
      subst t1'.
      pose proof (cube_complete c ti IX TX start (a_varr st) _ filt (length done) iw Hk Hs m Hf Hm (tk_pos t1) (start + (y - 1)) v (rk v) t1 t LT) as CC.
      unfold cube_match. replace (1 <=? y) with true by (symmetry; apply Nat.leb_le; lia).
      replace (y <=? length ts) with true by (symmetry; apply Nat.leb_le; lia).
      assert (rk v <> 0).
      { intros C. apply (rank_zero g W rk mm l GI RO NE v Hv) in C. subst v.
        pose proof (gi_simple _ _ GI wp O1) as ND. unfold chain in ND. inversion ND; subst. apply H2. apply in_or_app. left.
        apply (in_map fst) in O2. exact O2. }
      replace (1 <=? x) with true by (symmetry; apply Nat.leb_le; lia). cbn [andb].
      unfold has_match. subst x. replace (Z.of_nat y - 1)%Z with (Z.of_nat (start + (y - 1)) - Z.of_nat start)%Z by lia.
      apply CC; auto.
      + apply (al_varr _ _ _ _ _ AL). assumption.
      + apply by_vertex_get with g; assumption.
      + apply nth_error_In with (y - 1). assumption.
    - assumption.
    - assumption.
    - assumption.
    - intros i v t Hp Ht Hv. assert (Lv : v < g_next g) by (apply (gi_bound _ _ GI); assumption).
      pose proof (assign_old al ts (g_next g) i t v Ht Hp Lv) as D.
      rewrite (tok_pos_nth ts start HP i t Ht) in D. destruct (B5 i v D) as [D1 [t' D2]]. split; [assumption|].
      assert (Li : i < length ts) by (apply nth_error_Some; congruence).
      destruct (SR _ _ _ _ D2 Li) as [D3 D4]. congruence.
    - intros y x Hm'. destruct (B6 y x Hm') as [Y1 [X1 [y' [v [t [t' [Y2 [M2 [R2 [D1 [D2 D3]]]]]]]]]]].
      destruct (CF _ _ _ _ D2) as [F1 [F2 [F3 [F4 [F5 F6]]]]]; [fold ts; lia|]. fold ts in F1.
      destruct (CF _ _ _ _ D3) as [G1 [G2 [G3 [G4 [G5 G6]]]]]; [fold ts; lia|]. fold ts in G1.
      exists y', v, t, t'. split; [lia|]. split; [assumption|]. split.
      { unfold path. apply assign_nth with t'; [assumption|]. rewrite (tok_pos_nth ts start HP _ _ G1).
        replace (start + (y' - 1)) with (start + y' - 1) by lia. assumption. }
      split; [assumption|]. split; [assumption|]. split; [lia|]. split; [assumption|]. split; [assumption|].
      destruct (SR _ _ _ _ D2) as [[wp1 [u1 [U1 [U2 U3]]]] _]; [lia|]. destruct (SR _ _ _ _ D3) as [[wp2 [u2 [U4 [U5 U6]]]] _]; [lia|].
      destruct (al_label _ _ _ _ _ AL wp1 v u1 U1 U2) as [vx [V1 V2]]. destruct (al_label _ _ _ _ _ AL wp2 v u2 U4 U5) as [vx' [V3 V4]].
      congruence.
    - exact B7.
  Qed.
  Theorem step_numbered : forall done iw rest st W st', ti_wits ti = done ++ iw :: rest -> W <> [] ->
    al_inv filt ti done st W -> next_step topo filt false ti st iw = Ok st' ->
    exists rk mm l path M ms, rank_ok (a_graph st) rk mm l /\
      al_inv filt ti (done ++ [iw]) st' (W ++ [(iw_sigil iw, steps (iw_toks iw) path)]) /\
      optimal_step (a_graph st) rk W (iw_toks iw) path M ms /\
      exists al new, path = assign al (g_next (a_graph st)) (iw_toks iw) /\
        (forall t v, In t (iw_toks iw) -> dget Nat.eqb (tk_pos t) al = Some v -> In v (vertices (a_graph st))) /\
        merge (a_graph st) (iw_sigil iw) (iw_toks iw) al = Ok (a_graph st', new).
    Proof.
    intros done iw rest st W st' DW NE AL H. destruct (step_cube done iw rest st W st' DW NE AL H) as [rk [mm [l [path [m [ms [_ R]]]]]]].
    exists rk, mm, l, path, (cube_match (iw_toks iw) m), ms. exact R.
  Qed.
  Theorem step_optimal : forall done iw rest st W st', ti_wits ti = done ++ iw :: rest -> W <> [] ->
    al_inv filt ti done st W -> next_step topo filt false ti st iw = Ok st' ->
    exists rk mm l path M ms, rank_ok (a_graph st) rk mm l /\
      al_inv filt ti (done ++ [iw]) st' (W ++ [(iw_sigil iw, steps (iw_toks iw) path)]) /\
      optimal_step (a_graph st) rk W (iw_toks iw) path M ms.
  Proof.
    intros done iw rest st W st' DW NE AL H. destruct (step_numbered done iw rest st W st' DW NE AL H) as [rk [mm [l [path [M [ms [A1 [A2 [A3 _]]]]]]]]].
    exists rk, mm, l, path, M, ms. auto.
  Qed.
End Step.

(** ** Stages *)
Lemma foldM_app : forall {A B} (f : A -> B -> res A) l1 l2 a, foldM f (l1 ++ l2) a = (b <- foldM f l1 a ;; foldM f l2 b).
Proof. induction l1 as [|x l1 IH]; intros; cbn [app foldM]; [reflexivity|]. destruct (f a x); cbn [bind]; auto. Qed.

Lemma stage_state : forall topo filt c k g, topo_ok topo -> good_sigla c -> stage topo filt c k = Ok g ->
  exists ti st W, prepare c = Ok ti /\ index_ok c ti /\ index_text_ok ti /\ W <> [] /\ a_graph st = g /\
    al_inv filt ti (firstn (S k) (ti_wits ti)) st W /\
    forall g' iw, stage topo filt c (S k) = Ok g' -> nth_error (ti_wits ti) (S k) = Some iw ->
      exists st', next_step topo filt false ti st iw = Ok st' /\ a_graph st' = g'.
Proof.
  intros topo filt c k g TO [ND NE] H. unfold stage in H. apply bind_ok in H as [ti [P H]].
  pose proof (prepare_index_ok c ti ND P) as IX. pose proof (prepare_text_ok c ti P) as TX.
  destruct (ti_wits ti) as [|iw0 rest] eqn:E; [discriminate|]. apply bind_ok in H as [st0 [F H]]. apply bind_ok in H as [st' [A H]]. injection H as <-.
  destruct (first_step_inv c ti filt IX NE iw0 rest E) as [st1 [path [F1 F2]]]. rewrite F1 in F. injection F as <-.
  assert (G : forall k rest done st W st', ti_wits ti = done ++ rest -> W <> [] ->
    al_inv filt ti done st W -> foldM (next_step topo filt false ti) (firstn k rest) st = Ok st' ->
    exists W', al_inv filt ti (done ++ firstn k rest) st' W' /\ W' <> []).
  { clear - IX TX NE TO. induction k as [|k IH]; intros rest done st W st' DW NW AL H.
    - cbn in H. injection H as <-. exists W. rewrite app_nil_r. auto.
    - destruct rest as [|iw rest].
      + cbn in H. injection H as <-. exists W. cbn [firstn]. rewrite app_nil_r. auto.
      + cbn [firstn foldM] in H. apply bind_ok in H as [st1 [H1 H2]].
        destruct (next_step_inv c ti filt IX TX NE topo TO done iw rest st W DW NW AL) as [rk [mm [l [start [RK [RO [Hs [HP N]]]]]]]].
        destruct (next_step_cube ti filt topo st iw st1 _ RK H1) as [m Hm]. destruct (N m Hm) as [al [_ [st2 [N1 N2]]]].
        rewrite H1 in N1. injection N1 as <-. cbn [firstn].
        replace (done ++ iw :: rest) with ((done ++ [iw]) ++ rest) in DW by (rewrite <- app_assoc; reflexivity).
        apply (IH rest (done ++ [iw]) st1 _ st' DW) in N2; [|destruct W; discriminate|assumption].
        rewrite <- app_assoc in N2. exact N2. }
  assert (NN : [(iw_sigil iw0, steps (iw_toks iw0) path)] <> []) by discriminate.
  destruct (G k rest [iw0] st1 _ st' E NN F2 A) as [W [W1 W2]].
  exists ti, st', W. split; [assumption|]. split; [assumption|]. split; [assumption|]. split; [assumption|]. split; [reflexivity|].
  rewrite E. split; [exact W1|]. intros g' iw S1 N1. cbn [nth_error] in N1.
  unfold stage in S1. rewrite P in S1. cbn [bind] in S1. rewrite E, F1 in S1. cbn [bind] in S1.
  assert (FS : firstn (S k) rest = firstn k rest ++ [iw]).
  { clear - N1. revert rest N1. induction k as [|k IH]; intros [|a rest] H; try discriminate; cbn in H.
    - injection H as ->. reflexivity.
    - cbn [firstn app]. f_equal. apply IH. assumption. }
  rewrite FS, foldM_app, A in S1. cbn [bind foldM] in S1. apply bind_ok in S1 as [st2 [S1 S2]]. injection S2 as <-.
  apply bind_ok in S1 as [st3 [S1 S2]]. injection S2 as <-. eauto.
Qed.

Lemma longest_unique : forall g rk1 rk2, longest_from_start g rk1 -> longest_from_start g rk2 ->
  forall v, In v (vertices g) -> rk1 v = rk2 v.
Proof.
  intros g rk1 rk2 L1 L2 v Hv. destruct (L1 v Hv) as [A1 A2]. destruct (L2 v Hv) as [B1 B2].
  apply A2 in B1. apply B2 in A1. lia.
Qed.

Lemma on_vertex_reads : forall g W v s, graph_of g W -> (forall wp v ts, In wp W -> In (v, ts) (snd wp) -> exists t, ts = [t]) ->
  (on_vertex W v s <-> reads g v s).
Proof.
  intros g W v s GI ONE. split.
  - intros [wp [t [A [B C]]]]. destruct (gi_on _ _ GI wp v [t] A B) as [Hv _].
    destruct (dget_Some_key _ nat_eqb_ok _ _ Hv) as [vx D].
    exists vx, (fst wp), [t], t. split; [assumption|]. split; [|split; [left; reflexivity|assumption]].
    rewrite (gi_tokens _ _ GI v vx D). unfold tokens_on. apply in_flat_map. exists wp. split; [assumption|].
    pose proof (gi_simple _ _ GI wp A) as ND. unfold chain in ND. inversion ND as [|? ? _ ND2]; subst. apply NoDup_app_iff in ND2 as [ND2 _].
    rewrite (In_dget _ nat_eqb_ok v [t] (snd wp) ND2 B). left. reflexivity.
  - intros [vx [sg [ts [t [A [B [C D]]]]]]]. rewrite (gi_tokens _ _ GI v vx A) in B. unfold tokens_on in B.
    apply in_flat_map in B as [wp [B1 B2]]. destruct (dget Nat.eqb v (snd wp)) as [ts'|] eqn:Q; [|contradiction].
    destruct B2 as [B2|[]]. injection B2 as _ ->. apply (dget_In _ nat_eqb_ok) in Q.
    destruct (ONE wp v ts B1 Q) as [t' ->]. destruct C as [->|[]]. exists wp, t. auto.
Qed.

Theorem stage_optimal_path : forall topo filt c k g g' w rk, topo_ok topo -> good_sigla c ->
  stage topo filt c k = Ok g -> stage topo filt c (S k) = Ok g' -> nth_error c (S k) = Some w -> longest_from_start g rk ->
  exists M ms path,
    (forall y x, M y x = true -> same_reading g rk w y x) /\
    (filt = None -> forall y x, same_reading g rk w y x -> M y x = true) /\
    at_rank (walk M ms) = rk v_end - 1 /\ at_token (walk M ms) = length (w_toks w) /\
    (forall ms', at_rank (walk M ms') = rk v_end - 1 -> at_token (walk M ms') = length (w_toks w) ->
       (points (walk M ms') <= points (walk M ms))%Z) /\
    stands_on g' w path /\
    (forall i v t, nth_error path i = Some v -> nth_error (w_toks w) i = Some t -> In v (vertices g) ->
       In (S i, rk v) (met (walk M ms)) /\ reads g v (t0_str t)) /\
    (forall y x, In (y, x) (met (walk M ms)) -> exists y' v t t', y <= y' /\ In (y', x) (met (walk M ms)) /\
      nth_error path (y' - 1) = Some v /\ In v (vertices g) /\ rk v = x /\
      nth_error (w_toks w) (y - 1) = Some t /\ nth_error (w_toks w) (y' - 1) = Some t' /\ t0_str t = t0_str t') /\
    (forall v, In v (vertices g') <-> In v (vertices g) \/ In v path) /\
    (forall u v, edge g' u v <-> edge g u v \/ In (u, v) (pairs (v_start :: path ++ [v_end]))) /\
    preferred M ms.
Proof.
  intros topo filt c k g g' w rk TO G H H' Hw LG.
  destruct (stage_state topo filt c k g TO G H) as [ti [st [W [P [IX [TX [NE [<- [AL NX]]]]]]]]].
  assert (Hs : exists iw, nth_error (ti_wits ti) (S k) = Some iw).
  { apply nth_error_lt_ex. rewrite (wits_length c ti IX). apply nth_error_Some. congruence. }
  destruct Hs as [iw Hiw]. destruct (NX g' iw H' Hiw) as [st' [ST <-]].
  assert (DW : ti_wits ti = firstn (S k) (ti_wits ti) ++ iw :: skipn (S (S k)) (ti_wits ti)).
  { rewrite <- (firstn_skipn (S k) (ti_wits ti)) at 1. f_equal. apply skipn_nth_error. assumption. }
  destruct G as [ND NSG].
  destruct (step_optimal c ti filt IX TX NSG topo TO _ iw _ st W st' DW NE AL ST) as [rk' [mm [l [path [M [ms [RO [AL' OS]]]]]]]].
  pose proof (al_graph _ _ _ _ _ AL) as GI. pose proof (al_graph _ _ _ _ _ AL') as GI'.
  assert (RE : forall v, In v (vertices (a_graph st)) -> rk' v = rk v).
  { apply longest_unique; [apply (longest _ W rk' mm l GI RO NE)|assumption]. }
  assert (ONE : forall wp v ts, In wp W -> In (v, ts) (snd wp) -> exists t, ts = [t]).
  { intros wp v ts A B. destruct (Forall2_In_r _ _ _ _ (al_paths _ _ _ _ _ AL) A) as [iw' [_ [_ [pth [_ E]]]]].
    rewrite E in B. destruct (steps_single _ _ _ _ B) as [t [-> _]]. eauto. }
  (* the tokens of the witness *)
  assert (TK : iw_sigil iw = w_sigil w /\ length (iw_toks iw) = length (w_toks w) /\
    forall i t t0, nth_error (iw_toks iw) i = Some t -> nth_error (w_toks w) i = Some t0 -> tk_str t = t0_str t0).
  { pose proof Hiw as Q. rewrite (ix_wits _ _ IX) in Q. clear - Q Hw. 
    assert (GG : forall c pos k iw w, nth_error (stamped pos c) k = Some iw -> nth_error c k = Some w ->
      exists p, iw = {| iw_sigil := w_sigil w; iw_toks := stamp (w_sigil w) p (w_toks w) |}).
    { clear. induction c as [|w0 c IH]; intros pos k iw w H1 H2; destruct k as [|k]; try discriminate; cbn in H1, H2.
      - injection H1 as <-. injection H2 as <-. eauto.
      - eauto. }
    destruct (GG _ _ _ _ _ Q Hw) as [p ->]. cbn [iw_sigil iw_toks]. split; [reflexivity|]. split; [apply stamp_length|].
    clear Q. revert p. induction (w_toks w) as [|a ts IH]; intros p i t t0 H1 H2; destruct i as [|i]; try discriminate; cbn in H1, H2.
    - injection H1 as <-. injection H2 as <-. reflexivity.
    - eauto. }
  destruct TK as [TK1 [TK2 TK3]].
  assert (TKX : forall i t0, nth_error (w_toks w) i = Some t0 -> exists t, nth_error (iw_toks iw) i = Some t /\ tk_str t = t0_str t0).
  { intros i t0 Q. destruct (nth_error_lt_ex (iw_toks iw) i) as [t Ht]; [rewrite TK2; apply nth_error_Some; congruence|]. eauto. }
  assert (TKY : forall i t, nth_error (iw_toks iw) i = Some t -> exists t0, nth_error (w_toks w) i = Some t0 /\ tk_str t = t0_str t0).
  { intros i t Q. destruct (nth_error_lt_ex (w_toks w) i) as [t0 Ht]; [rewrite <- TK2; apply nth_error_Some; congruence|]. eauto. }
  destruct OS as [LP SN CM AR AT BE OA OM OF].
  assert (EN : In v_end (vertices (a_graph st))) by (apply (end_In _ _ GI)).
  rewrite (RE _ EN) in AR, BE. rewrite TK2 in AT, BE.
  exists M, ms, path. split; [|split; [|split; [assumption|split; [assumption|split; [exact BE|split; [|split; [|split; [|split; [|split; [|exact OF]]]]]]]]]].
  - intros y x Q. destruct (SN y x Q) as [t [v [Y [Ht [Hv [Hr O]]]]]]. destruct (TKY _ _ Ht) as [t0 [T1 T2]].
    exists t0, v. split; [assumption|]. split; [assumption|]. split; [assumption|]. split; [rewrite <- RE; assumption|].
    apply (on_vertex_reads _ W); auto. rewrite <- T2. assumption.
  - intros Hf y x [t0 [v [Y [Ht [Hv [Hr O]]]]]]. destruct (TKX _ _ Ht) as [t [T1 T2]].
    apply (CM Hf y x t v); auto; [rewrite RE; assumption|]. apply (on_vertex_reads _ W) in O; auto. rewrite T2. assumption.
  - set (wp := (iw_sigil iw, steps (iw_toks iw) path)) in *.
    assert (IWP : In wp (W ++ [wp])) by (apply in_or_app; right; left; reflexivity).
    pose proof (gi_simple _ _ GI' wp IWP) as NDC. unfold chain in NDC. inversion NDC as [|? ? _ NDC2]; subst. apply NoDup_app_iff in NDC2 as [NDC2 _].
    split; [|split; [congruence|]].
    + unfold wp in NDC2. cbn [snd] in NDC2. rewrite steps_fst in NDC2 by assumption. assumption.
    + intros i t0 v Ht Hv. destruct (TKX _ _ Ht) as [t [T1 T2]].
      assert (B : In (v, [t]) (snd wp)) by (cbn [wp snd]; apply steps_nth; eauto).
      destruct (gi_on _ _ GI' wp v [t] IWP B) as [Hv' _]. destruct (dget_Some_key _ nat_eqb_ok _ _ Hv') as [vx D].
      exists vx, t. split; [assumption|]. split; [|assumption].
      rewrite (gi_tokens _ _ GI' v vx D). unfold tokens_on. apply in_flat_map. exists wp. split; [assumption|].
      rewrite (In_dget _ nat_eqb_ok v [t] (snd wp) NDC2 B). left. cbn [wp fst]. congruence.
  - intros i v t0 Hp Ht Hv. destruct (TKX _ _ Ht) as [t [T1 T2]]. destruct (OA i v t Hp T1 Hv) as [O1 O2].
    rewrite <- (RE v Hv). split; [assumption|]. apply (on_vertex_reads _ W); auto. rewrite <- T2. assumption.
  - intros y x Q. destruct (OM y x Q) as [y' [v [t [t' [A1 [A2 [A3 [A4 [A5 [A6 [A7 [A8 A9]]]]]]]]]]]].
    destruct (TKY _ _ A7) as [u [U1 U2]]. destruct (TKY _ _ A8) as [u' [U3 U4]].
    exists y', v, u, u'. split; [assumption|]. split; [assumption|]. split; [assumption|]. split; [assumption|].
    split; [rewrite <- RE; assumption|]. split; [assumption|]. split; [assumption|]. congruence.
  - set (wp := (iw_sigil iw, steps (iw_toks iw) path)) in *.
    assert (IWP : In wp (W ++ [wp])) by (apply in_or_app; right; left; reflexivity).
    intros v. split.
    + intros Hv. destruct (gi_cover _ _ GI' v Hv) as [->|[->|[p [ts [Hp Hi]]]]].
      * left. apply (start_In _ _ GI).
      * left. apply (end_In _ _ GI).
      * apply in_app_or in Hp as [Hp|[<-|[]]]; [left; apply (gi_on _ _ GI p v ts Hp Hi)|]. right.
        apply (in_map fst) in Hi. cbn [wp snd fst] in Hi. rewrite steps_fst in Hi by assumption. assumption.
    + intros [Hv|Hv].
      * destruct (gi_cover _ _ GI v Hv) as [->|[->|[p [ts [Hp Hi]]]]]; [apply (start_In _ _ GI')|apply (end_In _ _ GI')|].
        apply (gi_on _ _ GI' p v ts); [apply in_or_app; left; assumption|assumption].
      * rewrite <- (steps_fst (iw_toks iw) path) in Hv by assumption. apply in_map_iff in Hv as [[v' ts] [<- Hv]].
        apply (gi_on _ _ GI' wp v' ts IWP). exact Hv.
  - intros u v. rewrite (graph_edge_path _ _ u v GI'), (graph_edge_path _ _ u v GI).
    assert (CH : chain (iw_sigil iw, steps (iw_toks iw) path) = v_start :: path ++ [v_end]).
    { unfold chain. cbn [snd]. rewrite steps_fst by assumption. reflexivity. }
    split.
    + intros [p [Hp Hi]]. apply in_app_or in Hp as [Hp|[<-|[]]]; [left; eauto|right; rewrite <- CH; assumption].
    + intros [[p [Hp Hi]]|Hi]; [exists p; split; [apply in_or_app; left; assumption|assumption]|].
      eexists. split; [apply in_or_app; right; left; reflexivity|]. rewrite CH. assumption.
Qed.

Theorem stage_optimal : forall topo filt c k g g' w rk, topo_ok topo -> good_sigla c ->
  stage topo filt c k = Ok g -> stage topo filt c (S k) = Ok g' -> nth_error c (S k) = Some w -> longest_from_start g rk ->
  exists M ms path,
    (forall y x, M y x = true -> same_reading g rk w y x) /\
    (filt = None -> forall y x, same_reading g rk w y x -> M y x = true) /\
    at_rank (walk M ms) = rk v_end - 1 /\ at_token (walk M ms) = length (w_toks w) /\
    (forall ms', at_rank (walk M ms') = rk v_end - 1 -> at_token (walk M ms') = length (w_toks w) ->
       (points (walk M ms') <= points (walk M ms))%Z) /\
    stands_on g' w path /\
    (forall i v t, nth_error path i = Some v -> nth_error (w_toks w) i = Some t -> In v (vertices g) ->
       In (S i, rk v) (met (walk M ms)) /\ reads g v (t0_str t)) /\
    (forall y x, In (y, x) (met (walk M ms)) -> exists y' v t t', y <= y' /\ In (y', x) (met (walk M ms)) /\
      nth_error path (y' - 1) = Some v /\ In v (vertices g) /\ rk v = x /\
      nth_error (w_toks w) (y - 1) = Some t /\ nth_error (w_toks w) (y' - 1) = Some t' /\ t0_str t = t0_str t').
Proof.
  intros topo filt c k g g' w rk TO G H H' Hw LG.
  destruct (stage_optimal_path topo filt c k g g' w rk TO G H H' Hw LG) as [M [ms [path [A1 [A2 [A3 [A4 [A5 [A6 [A7 [A8 _]]]]]]]]]]].
  exists M, ms, path. repeat (split; [assumption|]). assumption.
Qed.
