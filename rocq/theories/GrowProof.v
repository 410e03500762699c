(** The graph of the first witnesses does not depend on the later ones, which only add to it. *)
From Verif Require Import Py Lib TokenModel SuffixModel IndexModel GraphModel AlignModel TableModel NearModel ExportModel CollateModel GraphSpec SuffixSpec
  GraphProof MergeProof RankProof TableSpec AlignProof IndexProof BlockText InstProof CubeProof AlignerProof CollateProof CollateSpec StageProof
  WalkSpec WalkProof WalkAlign WalkStage TableProof GrowSpec.
From Coq Require Import Sorted.
Open Scope list_scope.
Open Scope nat_scope.

(** ** Two cubes with the same entries in the rows of the witness *)
Section Ext.
  Variables (m1 m2 : cube) (rows : nat).
  Hypothesis E : forall y x, (y < Z.of_nat rows)%Z -> dget coord_eqb (y, x) m1 = dget coord_eqb (y, x) m2.

  Lemma has_match_same : forall y x, (y < Z.of_nat rows)%Z -> has_match m1 y x = has_match m2 y x.
  Proof. intros y x L. unfold has_match, dmem. rewrite E by assumption. reflexivity. Qed.

  Lemma fill_cells_same : forall y, y <= rows -> forall ups x ul left, fill_cells m1 y x ul left ups = fill_cells m2 y x ul left ups.
  Proof.
    intros y L. induction ups as [|up ups IH]; intros x ul left; [reflexivity|]. cbn [fill_cells].
    assert (Q1 : sc_score m1 x y ul = sc_score m2 x y ul) by (unfold sc_score; rewrite has_match_same by lia; reflexivity).
    assert (Q2 : from_upper m1 x y up = from_upper m2 x y up).
    { unfold from_upper, sc_score. rewrite !has_match_same by lia. reflexivity. }
    rewrite Q1, Q2, IH. reflexivity.
  Qed.

  Lemma more_rows_same : forall n y prev, y + n <= S rows -> more_rows m1 y n prev = more_rows m2 y n prev.
  Proof.
    induction n as [|n IH]; intros y prev L; [reflexivity|]. cbn [more_rows].
    assert (Q : next_row m1 y prev = next_row m2 y prev).
    { unfold next_row. destruct prev as [|p0 ps]; [reflexivity|]. rewrite fill_cells_same by lia. reflexivity. }
    rewrite Q, IH by lia. reflexivity.
  Qed.

  Lemma fill_table_same : forall cols, fill_table m1 cols rows = fill_table m2 cols rows.
  Proof. intros. unfold fill_table. rewrite more_rows_same by lia. reflexivity. Qed.

  Lemma align_same : forall cols, 1 <= cols ->
    align_matching_tokens m1 (fill_table m1 cols rows) = align_matching_tokens m2 (fill_table m2 cols rows).
  Proof.
    intros cols C. rewrite <- fill_table_same. unfold align_matching_tokens.
    destruct (aget (fill_table m1 cols rows) 0) as [row0|] eqn:R; [|reflexivity]. cbn [bind].
    apply aget_ok in R. pose proof (fill_row_length m1 cols rows C 0 row0 R) as L.
    destruct (score_iter_trace m1 cols rows C (length row0 - 1 + (length (fill_table m1 cols rows) - 1)) (length row0 - 1) (length (fill_table m1 cols rows) - 1))
      as [l [P T]]; try (rewrite (fill_table_rows m1 cols rows)); try lia.
    rewrite (fill_table_rows m1 cols rows) in *. rewrite P. cbn [bind].
    assert (B : forall s, In s l -> s_y s <= rows).
    { intros s Hs. pose proof (trace_bound m1 cols rows C _ _ _ T s Hs). lia. }
    clear P T. generalize ([] : list (nat * vid), [] : list vid).
    assert (G : forall l st, (forall s, In s l -> s_y s <= rows) -> foldM (align_step m1) l st = foldM (align_step m2) l st).
    { clear - E. induction l as [|s l IH]; intros st B; [reflexivity|]. cbn [foldM].
      assert (Q : align_step m1 st s = align_step m2 st s).
      { unfold align_step, get_match, dgetE. rewrite E by (pose proof (B s (or_introl eq_refl)); lia). reflexivity. }
      rewrite Q. destruct (align_step m2 st s); cbn [bind]; [|reflexivity]. apply IH. intros; apply B; right; assumption. }
    intros st. rewrite (G l st B). reflexivity.
  Qed.
End Ext.

(** ** One step in two collations that begin alike *)
Lemma at_vertex_paths : forall g W1 W2, graph_of g W1 -> graph_of g W2 -> forall p v, at_vertex W1 p v -> at_vertex W2 p v.
Proof.
  intros g W1 W2 G1 G2 p v [wp [t [A [B C]]]]. destruct (gi_on _ _ G1 wp v [t] A B) as [Hv _].
  destruct (dget_Some_key _ nat_eqb_ok _ _ Hv) as [vx D].
  assert (I : In (fst wp, [t]) (tokens_on W1 v)).
  { apply tokens_on_In. exists wp. split; [assumption|]. split; [reflexivity|].
    pose proof (gi_simple _ _ G1 wp A) as ND. unfold chain in ND. inversion ND as [|? ? _ ND2]; subst. apply NoDup_app_iff in ND2 as [ND2 _].
    apply (In_dget _ nat_eqb_ok v [t] (snd wp) ND2 B). }
  rewrite <- (gi_tokens _ _ G1 v vx D), (gi_tokens _ _ G2 v vx D) in I. apply tokens_on_In in I as [wp2 [I1 [I2 I3]]].
  exists wp2, t. split; [assumption|]. split; [|assumption]. apply (dget_In _ nat_eqb_ok) in I3. assumption.
Qed.

Section Two.
  Variables (c1 c2 : collation) (ti1 ti2 : tindex).
  Hypothesis IX1 : index_ok c1 ti1.
  Hypothesis IX2 : index_ok c2 ti2.
  Hypothesis TX1 : index_text_ok ti1.
  Hypothesis TX2 : index_text_ok ti2.
  Hypothesis SG1 : ~ In [] (map w_sigil c1).
  Hypothesis SG2 : ~ In [] (map w_sigil c2).
  Variable topo : graph -> res (list vid).
  Hypothesis TO : topo_ok topo.

  (** An entry of the first cube is an entry of the second. *)
  Lemma cube_entry : forall done iw rest1 rest2 st1 st2 W W2 rk mm l start m1 m2,
    ti_wits ti1 = done ++ iw :: rest1 -> ti_wits ti2 = done ++ iw :: rest2 ->
    al_inv None ti1 done st1 W -> al_inv None ti2 done st2 W2 -> a_graph st1 = a_graph st2 -> unambiguous (a_graph st1) ->
    longest_from_start (a_graph st1) rk -> rank_ok (a_graph st1) rk mm l ->
    start_token_position ti1 (iw_sigil iw) = Ok start -> start_token_position ti2 (iw_sigil iw) = Ok start ->
    map tk_pos (iw_toks iw) = seq start (length (iw_toks iw)) ->
    match_cube ti1 (iw_sigil iw) (a_varr st1) (by_vertex (ranking_for rk mm l)) None = Ok m1 ->
    match_cube ti2 (iw_sigil iw) (a_varr st2) (by_vertex (ranking_for rk mm l)) None = Ok m2 ->
    forall y x vt, (y < Z.of_nat (length (iw_toks iw)))%Z -> dget coord_eqb (y, x) m1 = Some vt -> dget coord_eqb (y, x) m2 = Some vt.
  Proof.
    intros done iw rest1 rest2 st1 st2 W W2 rk mm l start m1 m2 D1 D2 A1 A2 EG UN LG RO H1 H2 HP M1 M2 y x [v t] L E.
    assert (K1 : nth_error (ti_wits ti1) (length done) = Some iw) by (rewrite D1, nth_error_app2, Nat.sub_diag by lia; reflexivity).
    assert (K2 : nth_error (ti_wits ti2) (length done) = Some iw) by (rewrite D2, nth_error_app2, Nat.sub_diag by lia; reflexivity).
    assert (I1 : In iw (ti_wits ti1)) by (eapply nth_error_In; eassumption).
    assert (I2 : In iw (ti_wits ti2)) by (eapply nth_error_In; eassumption).
    pose proof (cube_rows c1 ti1 None IX1 _ iw start _ _ m1 K1 H1 M1 _ _ E) as Y0. cbn [fst] in Y0.
    assert (EY : y = Z.of_nat (Z.to_nat y)) by lia. set (n := Z.to_nat y) in *. rewrite EY in *. assert (Ln : n < length (iw_toks iw)) by lia.
    destruct (cube_facts c1 ti1 None IX1 TX1 done iw rest1 st1 W rk mm l start m1 D1 A1 RO H1 HP M1 n x v t E Ln) as [F1 [F2 [F3 [F4 [F5 F6]]]]].
    destruct F6 as [p [t1 [P1 [P2 [P3 [P4 _]]]]]].
    (* the token at p is the same in both *)
    destruct P1 as [wp [u [Q1 [Q2 Q3]]]].
    destruct (Forall2_In_r _ _ _ _ (al_paths _ _ _ _ _ A1) Q1) as [iw' [B1 B2]].
    assert (Hu : In u (iw_toks iw')).
    { destruct B2 as [_ [path [_ B4]]]. rewrite B4 in Q2. destruct (steps_single _ _ _ _ Q2) as [u' [B5 B6]]. congruence. }
    assert (J1 : In iw' (ti_wits ti1)) by (rewrite D1; apply in_or_app; left; assumption).
    assert (J2 : In iw' (ti_wits ti2)) by (rewrite D2; apply in_or_app; left; assumption).
    pose proof (ix_nth c1 ti1 IX1 iw' u J1 Hu) as N1. pose proof (ix_nth c2 ti2 IX2 iw' u J2 Hu) as N2. rewrite Q3 in N1, N2.
    assert (t1 = u) by congruence. subst t1.
    assert (Lp : p < start).
    { apply In_nth_error in B1 as [k2 B1]. assert (L2 : k2 < length done) by (apply nth_error_Some; congruence).
      assert (B3 : nth_error (ti_wits ti2) k2 = Some iw') by (rewrite D2, nth_error_app1 by assumption; assumption).
      pose proof (tok_range c2 ti2 IX2 k2 iw' u B3 Hu) as R. rewrite (start_pos c2 ti2 IX2 _ _ _ K2 H2).
      assert (length done <= length c2).
      { rewrite <- (wits_length c2 ti2 IX2), D2, app_length. lia. }
      pose proof (start_of_le c2 (S k2) (length done)). lia. }
    assert (V2 : nth_error (a_varr st2) p = Some (Some v)).
    { apply (al_varr _ _ _ _ _ A2). apply (at_vertex_paths (a_graph st1) W W2); [apply (al_graph _ _ _ _ _ A1)|rewrite EG; apply (al_graph _ _ _ _ _ A2)|]. exists wp, u. auto. }
    pose proof (by_vertex_get _ _ _ _ v RO F2) as BV.
    assert (TA : nth_error (ti_array ti2) (start + n) = Some t).
    { destruct (ix_tok_nth c2 ti2 IX2 iw start n I2 HP Ln) as [t2 [T1 [T2 T3]]]. congruence. }
    pose proof (cube_complete c2 ti2 IX2 TX2 start (a_varr st2) _ None (length done) iw K2 H2 m2 eq_refl M2 p (start + n) v (rk v) u t Lp V2 BV N2 TA
      (nth_error_In _ _ F1) P3) as C.
    replace (Z.of_nat (start + n) - Z.of_nat start)%Z with (Z.of_nat n) in C by lia. rewrite <- F5 in C. unfold dmem in C.
    destruct (dget coord_eqb (Z.of_nat n, x) m2) as [[v2 t2]|] eqn:E2; [|discriminate]. f_equal.
    rewrite EG in RO.
    destruct (cube_facts c2 ti2 None IX2 TX2 done iw rest2 st2 W2 rk mm l start m2 D2 A2 RO H2 HP M2 n x v2 t2 E2 Ln) as [G1 [G2 [G3 [G4 [G5 G6]]]]].
    assert (t2 = t) by congruence. subst t2. f_equal. symmetry.
    destruct G6 as [p' [t' [[wp' [u' [R1 [R2 R3]]]] [R4 [R5 _]]]]].
    destruct (al_label _ _ _ _ _ A1 wp v u Q1 Q2) as [vx [X1 X2]].
    destruct (al_label _ _ _ _ _ A2 wp' v2 u' R1 R2) as [vx' [X3 X4]].
    destruct (Forall2_In_r _ _ _ _ (al_paths _ _ _ _ _ A2) R1) as [iw2 [S1 S2]].
    assert (Hu' : In u' (iw_toks iw2)).
    { destruct S2 as [_ [path [_ B4]]]. rewrite B4 in R2. destruct (steps_single _ _ _ _ R2) as [u2 [B5 B6]]. congruence. }
    assert (J3 : In iw2 (ti_wits ti2)) by (rewrite D2; apply in_or_app; left; assumption).
    pose proof (ix_nth c2 ti2 IX2 iw2 u' J3 Hu') as N3. rewrite R3 in N3. assert (t' = u') by congruence. subst t'.
    rewrite <- EG in X3. apply (UN rk v v2 vx vx' LG X1 X3); [lia|congruence].
  Qed.
End Two.

Section Runs.
  Variables (c1 c2 : collation) (ti1 ti2 : tindex).
  Hypothesis IX1 : index_ok c1 ti1.
  Hypothesis IX2 : index_ok c2 ti2.
  Hypothesis TX1 : index_text_ok ti1.
  Hypothesis TX2 : index_text_ok ti2.
  Hypothesis SG1 : ~ In [] (map w_sigil c1).
  Hypothesis SG2 : ~ In [] (map w_sigil c2).
  Variable topo : graph -> res (list vid).
  Hypothesis TO : topo_ok topo.

  Lemma step_same : forall done iw rest1 rest2 st1 st2 W W2 st1' st2',
    ti_wits ti1 = done ++ iw :: rest1 -> ti_wits ti2 = done ++ iw :: rest2 -> W <> [] -> W2 <> [] ->
    al_inv None ti1 done st1 W -> al_inv None ti2 done st2 W2 -> a_graph st1 = a_graph st2 -> unambiguous (a_graph st1) ->
    next_step topo None false ti1 st1 iw = Ok st1' -> next_step topo None false ti2 st2 iw = Ok st2' ->
    a_graph st1' = a_graph st2'.
  Proof.
    intros done iw rest1 rest2 st1 st2 W W2 st1' st2' D1 D2 NW NW2 A1 A2 EG UN S1 S2.
    destruct (next_step_inv c1 ti1 None IX1 TX1 SG1 topo TO done iw rest1 st1 W D1 NW A1) as [rk [mm [l [start [RK [RO [Hs [HP N]]]]]]]].
    destruct (next_step_inv c2 ti2 None IX2 TX2 SG2 topo TO done iw rest2 st2 W2 D2 NW2 A2) as [rk2 [mm2 [l2 [start2 [RK2 [RO2 [Hs2 [HP2 N2]]]]]]]].
    destruct (next_step_cube ti1 None topo st1 iw st1' _ RK S1) as [m1 Hm1]. destruct (N m1 Hm1) as [al1 [AL1 [st1b [N1 I1]]]].
    rewrite S1 in N1. injection N1 as <-.
    destruct (next_step_cube ti2 None topo st2 iw st2' _ RK2 S2) as [m2 Hm2]. destruct (N2 m2 Hm2) as [al2 [AL2 [st2b [N3 I2]]]].
    rewrite S2 in N3. injection N3 as <-.
    pose proof (next_step_merge _ _ _ _ _ _ _ _ _ _ _ RK RO Hm1 AL1 S1) as [new1 G1].
    pose proof (next_step_merge _ _ _ _ _ _ _ _ _ _ _ RK2 RO2 Hm2 AL2 S2) as [new2 G2].
    assert (ES : start2 = start).
    { rewrite HP in HP2. destruct (ix_start c1 ti1 IX1 iw) as [s [_ [_ NE]]]; [rewrite D1; apply in_or_app; right; left; reflexivity|].
      destruct (iw_toks iw); [congruence|]. cbn [length seq] in HP2. congruence. }
    subst start2.
    pose proof (al_graph _ _ _ _ _ A1) as GI. 
    pose proof (longest _ _ _ _ _ GI RO NW) as LG.
    rewrite <- EG in RK2, RO2, G2. assert (ERK : ranking_for rk mm l = ranking_for rk2 mm2 l2) by congruence.
    assert (EM : mm2 = mm) by (destruct (rank_unique _ _ _ _ _ _ _ _ GI NW RO RO2) as [_ [? _]]; congruence).
    rewrite <- ERK in Hm2.
    assert (EQ : forall y x, (y < Z.of_nat (length (iw_toks iw)))%Z -> dget coord_eqb (y, x) m1 = dget coord_eqb (y, x) m2).
    { intros y x L. destruct (dget coord_eqb (y, x) m1) as [vt|] eqn:E1.
      - symmetry. eapply (cube_entry c1 c2 ti1 ti2 IX1 IX2 TX1 TX2 done iw rest1 rest2 st1 st2 W W2 rk mm l start m1 m2); eassumption.
      - destruct (dget coord_eqb (y, x) m2) as [vt|] eqn:E2; [|reflexivity]. exfalso.
        assert (Q : dget coord_eqb (y, x) m1 = Some vt).
        { rewrite EG in UN, LG, RO. apply (cube_entry c2 c1 ti2 ti1 IX2 IX1 TX2 TX1 done iw rest2 rest1 st2 st1 W2 W rk mm l start m2 m1); auto. }
        congruence. }
    subst mm2.
    assert (CP : 1 <= mm - 1).
    { exact (cols_pos _ _ _ _ _ GI RO NW). }
    rewrite (align_same m1 m2 _ EQ _ CP) in AL1. rewrite AL1 in AL2. injection AL2 as <-. rewrite G1 in G2. injection G2 as EG' _. exact EG'.
  Qed.
End Runs.

(** ** The stages *)
Lemma stage_pred : forall topo filt c k g', stage topo filt c (S k) = Ok g' -> exists g, stage topo filt c k = Ok g.
Proof.
  intros topo filt c k g' H. unfold stage in *. apply bind_ok in H as [ti [P H]]. rewrite P. cbn [bind].
  destruct (ti_wits ti) as [|w ws]; [discriminate|]. apply bind_ok in H as [st [F H]]. rewrite F. cbn [bind].
  apply bind_ok in H as [st' [A _]].
  assert (FS : exists l, firstn (S k) ws = firstn k ws ++ l).
  { clear. revert ws. induction k as [|k IH]; intros ws; [exists (firstn 1 ws); reflexivity|].
    destruct ws as [|a ws]; [exists []; reflexivity|]. destruct (IH ws) as [l E]. exists l.
    change (firstn (S (S k)) (a :: ws)) with (a :: firstn (S k) ws). change (firstn (S k) (a :: ws)) with (a :: firstn k ws). rewrite E. reflexivity. }
  destruct FS as [l FS]. rewrite FS, foldM_app in A. apply bind_ok in A as [st1 [A _]]. rewrite A. cbn [bind]. eauto.
Qed.

Lemma stamped_app : forall c1 c2 pos, exists pos', stamped pos (c1 ++ c2) = stamped pos c1 ++ stamped pos' c2.
Proof.
  induction c1 as [|w c1 IH]; intros c2 pos; [exists pos; reflexivity|]. cbn [app stamped].
  destruct (IH c2 (pos + length (w_toks w) + 1)) as [pos' E]. exists pos'. rewrite E. reflexivity.
Qed.

Lemma stamped_length : forall c pos, length (stamped pos c) = length c.
Proof. induction c as [|w c IH]; intros pos; [reflexivity|]. cbn [stamped length]. f_equal. apply IH. Qed.

Theorem stages_same : forall topo c m1 m2 k g1 g2, topo_ok topo -> good_sigla (c ++ m1) -> good_sigla (c ++ m2) -> k < length c ->
  stage topo None (c ++ m1) k = Ok g1 -> stage topo None (c ++ m2) k = Ok g2 ->
  (forall j g, j < k -> stage topo None (c ++ m1) j = Ok g -> unambiguous g) -> g1 = g2.
Proof.
  intros topo c m1 m2 k. induction k as [|k IH]; intros g1 g2 TO GS1 GS2 L H1 H2 UN.
  - destruct c as [|w c]; [cbn in L; lia|]. unfold stage in *. apply bind_ok in H1 as [ti1 [P1 H1]]. apply bind_ok in H2 as [ti2 [P2 H2]].
    pose proof (prepare_index_ok _ ti1 (proj1 GS1) P1) as IX1. pose proof (prepare_index_ok _ ti2 (proj1 GS2) P2) as IX2.
    rewrite (ix_wits _ _ IX1) in H1. rewrite (ix_wits _ _ IX2) in H2. cbn [app stamped] in H1, H2.
    unfold first_step in *. cbn [iw_sigil iw_toks firstn foldM bind] in *.
    apply bind_ok in H1 as [st1 [F1 H1]]. apply bind_ok in F1 as [[ga na] [M1 F1]]. apply bind_ok in F1 as [r1 [_ F1]]. apply bind_ok in F1 as [v1 [_ F1]].
    apply bind_ok in H2 as [st2 [F2 H2]]. apply bind_ok in F2 as [[gb nb] [M2 F2]]. apply bind_ok in F2 as [r2 [_ F2]]. apply bind_ok in F2 as [v2 [_ F2]].
    injection F1 as <-. injection F2 as <-. injection H1 as <-. injection H2 as <-. cbn [a_graph]. congruence.
  - destruct (stage_pred _ _ _ _ _ H1) as [h1 K1]. destruct (stage_pred _ _ _ _ _ H2) as [h2 K2].
    assert (EH : h1 = h2).
    { apply (IH h1 h2); auto; [lia|]. intros j g Lj. apply UN. lia. }
    assert (U : unambiguous h1) by (apply (UN k); [lia|assumption]).
    destruct (stage_state topo None (c ++ m1) k h1 TO GS1 K1) as [ti1 [st1 [W1 [P1 [IX1 [TX1 [NW1 [EG1 [AL1 N1]]]]]]]]].
    destruct (stage_state topo None (c ++ m2) k h2 TO GS2 K2) as [ti2 [st2 [W2 [P2 [IX2 [TX2 [NW2 [EG2 [AL2 N2]]]]]]]]].
    destruct (stamped_app c m1 0) as [pa SA]. destruct (stamped_app c m2 0) as [pb SB].
    destruct (nth_error_lt_ex (stamped 0 c) (S k)) as [iw Hiw]; [rewrite stamped_length; assumption|].
    assert (Hi1 : nth_error (ti_wits ti1) (S k) = Some iw) by (rewrite (ix_wits _ _ IX1), SA, nth_error_app1 by (rewrite stamped_length; assumption); assumption).
    assert (Hi2 : nth_error (ti_wits ti2) (S k) = Some iw) by (rewrite (ix_wits _ _ IX2), SB, nth_error_app1 by (rewrite stamped_length; assumption); assumption).
    destruct (N1 g1 iw H1 Hi1) as [st1' [S1 Q1]]. destruct (N2 g2 iw H2 Hi2) as [st2' [S2 Q2]].
    assert (FD : firstn (S k) (ti_wits ti1) = firstn (S k) (ti_wits ti2)).
    { rewrite (ix_wits _ _ IX1), (ix_wits _ _ IX2), SA, SB, !firstn_app.
      replace (S k - length (stamped 0 c)) with 0 by (rewrite stamped_length; lia). reflexivity. }
    assert (D1 : exists r1, ti_wits ti1 = firstn (S k) (ti_wits ti1) ++ iw :: r1).
    { apply nth_error_split in Hi1 as [l1 [l2 [Q L1]]]. exists l2. rewrite Q at 2. rewrite firstn_app, <- L1, Nat.sub_diag, firstn_all. cbn [firstn]. rewrite app_nil_r. exact Q. }
    assert (D2 : exists r2, ti_wits ti2 = firstn (S k) (ti_wits ti2) ++ iw :: r2).
    { apply nth_error_split in Hi2 as [l1 [l2 [Q L1]]]. exists l2. rewrite Q at 2. rewrite firstn_app, <- L1, Nat.sub_diag, firstn_all. cbn [firstn]. rewrite app_nil_r. exact Q. }
    destruct D1 as [r1 D1]. destruct D2 as [r2 D2]. rewrite <- FD in D2, AL2.
    rewrite <- Q1, <- Q2.
    apply (step_same (c ++ m1) (c ++ m2) ti1 ti2 IX1 IX2 TX1 TX2 (proj2 GS1) (proj2 GS2) topo TO (firstn (S k) (ti_wits ti1)) iw r1 r2 st1 st2 W1 W2); auto; [congruence|].
    rewrite EG1. assumption.
Qed.

(** ** Growth *)
Lemma grown_refl : forall sgs g, grown sgs g g.
Proof.
  intros sgs g. constructor.
  - intros v vx H. exists vx. auto.
  - intros v vx H N. exfalso. apply N. unfold vertices. apply (dget_In _ nat_eqb_ok) in H. apply (in_map fst) in H. exact H.
  - auto.
Qed.

Lemma grown_trans : forall s1 s2 g1 g2 g3, grown s1 g1 g2 -> grown s2 g2 g3 -> (forall s, In s s1 -> In s s2) -> grown s1 g1 g3.
Proof.
  intros s1 s2 g1 g2 g3 A B I. constructor.
  - intros v vx H. destruct (gr_vertex _ _ _ A v vx H) as [vx2 [H2 [L2 T2]]]. destruct (gr_vertex _ _ _ B v vx2 H2) as [vx3 [H3 [L3 T3]]].
    exists vx3. split; [assumption|]. split; [congruence|]. intros sg Hs. rewrite T3, T2 by auto. reflexivity.
  - intros v vx3 H3 N sg Hs. destruct (dget Nat.eqb v (g_verts g2)) as [vx2|] eqn:H2.
    + destruct (gr_vertex _ _ _ B v vx2 H2) as [vx3' [H3' [_ T3]]]. assert (vx3' = vx3) by congruence. subst vx3'.
      rewrite T3 by auto. apply (gr_new _ _ _ A v vx2 H2 N sg Hs).
    + apply (gr_new _ _ _ B v vx3 H3); [|auto]. intros C. destruct (dget_Some_key _ nat_eqb_ok _ _ C) as [vx C']. congruence.
  - intros u v E. apply (gr_edge _ _ _ B). apply (gr_edge _ _ _ A). assumption.
Qed.

Lemma grown_paths : forall g g' W W2, graph_of g W -> graph_of g' (W ++ W2) ->
  (forall v vx vx' , inner v = true -> dget Nat.eqb v (g_verts g) = Some vx -> dget Nat.eqb v (g_verts g') = Some vx' -> v_label vx' = v_label vx) ->
  grown (map fst W) g g'.
Proof.
  intros g g' W W2 G G' LB.
  assert (DA : forall (l1 l2 : list (str * list token)) sg, ~ In sg (map fst l2) -> dget str_eqb sg (l1 ++ l2) = dget str_eqb sg l1).
  { clear. induction l1 as [|[k v] l1 IH]; intros l2 sg N; cbn [app dget].
    - apply (dget_None _ str_eqb_ok). assumption.
    - destruct (str_eqb sg k); auto. }
  assert (NW2 : forall v sg, In sg (map fst W) -> ~ In sg (map fst (tokens_on W2 v))).
  { intros v sg H C. apply tokens_on_sigla in C. pose proof (gi_sigla _ _ G') as N. rewrite map_app in N. apply NoDup_app_iff in N as [_ [_ N]]. apply (N sg H C). }
  constructor.
  - intros v vx H.
    assert (Hv : In v (vertices g)) by (unfold vertices; apply (dget_In _ nat_eqb_ok) in H; apply (in_map fst) in H; exact H).
    assert (Hv' : In v (vertices g')).
    { destruct (gi_cover _ _ G v Hv) as [->|[->|[p [ts [A B]]]]].
      - apply (start_In _ _ G'). - apply (end_In _ _ G'). - apply (gi_on _ _ G' p v ts); [apply in_or_app; left; assumption|assumption]. }
    destruct (dget_Some_key _ nat_eqb_ok _ _ Hv') as [vx' H']. exists vx'. split; [assumption|]. split.
    + destruct (inner v) eqn:I; [eapply LB; eassumption|]. unfold inner in I.
      assert (v = v_start \/ v = v_end) as [->| ->].
      { destruct (Nat.eq_dec v v_start); [auto|]. destruct (Nat.eq_dec v v_end); [auto|]. exfalso.
        apply Nat.eqb_neq in n, n0. rewrite n, n0 in I. discriminate. }
      * rewrite (gi_start _ _ G) in H. rewrite (gi_start _ _ G') in H'. congruence.
      * rewrite (gi_end _ _ G) in H. rewrite (gi_end _ _ G') in H'. congruence.
    + intros sg Hs. rewrite (gi_tokens _ _ G v vx H), (gi_tokens _ _ G' v vx' H'), tokens_on_app. apply DA. apply NW2. assumption.
  - intros v vx H N sg Hs. rewrite (gi_tokens _ _ G' v vx H), tokens_on_app, DA by (apply NW2; assumption).
    destruct (tokens_on W v) as [|[s ts] l] eqn:T; [reflexivity|]. exfalso. apply N.
    assert (I : In (s, ts) (tokens_on W v)) by (rewrite T; left; reflexivity). apply tokens_on_In in I as [p [I1 [_ I3]]].
    apply (dget_In _ nat_eqb_ok) in I3. apply (gi_on _ _ G p v ts I1 I3).
  - intros u v E. unfold edge, edge_pairs in *.
    destruct (dget edge_eqb (u, v) (g_edges g')) as [x|] eqn:D; [apply (dget_In _ edge_eqb_ok) in D; apply (in_map fst) in D; exact D|].
    exfalso. rewrite (gi_edges _ _ G' (u, v)) in D. destruct (dget_Some_key _ edge_eqb_ok _ _ E) as [x D2]. rewrite (gi_edges _ _ G (u, v)) in D2.
    assert (U : users (W ++ W2) (u, v) = users W (u, v) ++ users W2 (u, v)) by (unfold users; rewrite filter_app, map_app; reflexivity).
    rewrite U in D. destruct (users W (u, v)); [discriminate D2|discriminate D].
Qed.

Lemma path_single : forall iws W wp v ts, Forall2 path_for iws W -> In wp W -> In (v, ts) (snd wp) -> exists t, ts = [t].
Proof.
  intros iws W wp v ts F H I. destruct (Forall2_In_r _ _ _ _ F H) as [iw [_ [_ [path [_ E]]]]]. rewrite E in I.
  destruct (steps_single _ _ _ _ I) as [t [E1 _]]. eauto.
Qed.

Theorem stage_grown : forall topo filt c k g g', topo_ok topo -> good_sigla c -> S k < length c ->
  stage topo filt c k = Ok g -> stage topo filt c (S k) = Ok g' -> grown (map w_sigil (firstn (S k) c)) g g'.
Proof.
  intros topo filt c k g g' TO GS L H1 H2.
  destruct (stage_state topo filt c k g TO GS H1) as [ti [st [W [P [IX [TX [NW [EG [AL N]]]]]]]]].
  destruct (nth_error_lt_ex (ti_wits ti) (S k)) as [iw Hiw]; [rewrite (wits_length c ti IX); assumption|].
  destruct (N g' iw H2 Hiw) as [st' [S1 Q1]].
  assert (D1 : exists r1, ti_wits ti = firstn (S k) (ti_wits ti) ++ iw :: r1).
  { pose proof Hiw as Hi1. apply nth_error_split in Hi1 as [l1 [l2 [Q L1]]]. exists l2. rewrite Q at 2. rewrite firstn_app, <- L1, Nat.sub_diag, firstn_all. cbn [firstn]. rewrite app_nil_r. exact Q. }
  destruct D1 as [r1 D1].
  destruct (next_step_inv c ti filt IX TX (proj2 GS) topo TO _ iw r1 st W D1 NW AL) as [rk [mm [l [start [RK [RO [Hs [HP NN]]]]]]]].
  destruct (next_step_cube ti filt topo st iw st' _ RK S1) as [m Hm]. destruct (NN m Hm) as [al [_ [st2 [N1 AL']]]].
  rewrite S1 in N1. injection N1 as <-.
  assert (ES : map w_sigil (firstn (S k) c) = map fst W).
  { rewrite (paths_sigla _ W (al_paths _ _ _ _ _ AL)), (ix_wits _ _ IX), <- firstn_map, <- firstn_map, stamped_sigla. reflexivity. }
  rewrite ES, <- EG, <- Q1. eapply grown_paths; [apply (al_graph _ _ _ _ _ AL)|apply (al_graph _ _ _ _ _ AL')|].
  intros v vx vx' I A B.
  assert (Hv : In v (vertices (a_graph st))) by (unfold vertices; apply (dget_In _ nat_eqb_ok) in A; apply (in_map fst) in A; exact A).
  destruct (gi_cover _ _ (al_graph _ _ _ _ _ AL) v Hv) as [->|[->|[wp [ts [I1 I2]]]]]; try discriminate I.
  destruct (path_single _ _ wp v ts (al_paths _ _ _ _ _ AL) I1 I2) as [t ->].
  destruct (al_label _ _ _ _ _ AL wp v t I1 I2) as [x1 [X1 X2]].
  destruct (al_label _ _ _ _ _ AL' wp v t (in_or_app _ _ _ (or_introl I1)) I2) as [x2 [X3 X4]]. congruence.
Qed.

Lemma firstn_incl : forall {A} (l : list A) a b x, a <= b -> In x (firstn a l) -> In x (firstn b l).
Proof.
  intros A l a b x L H. rewrite <- (firstn_skipn a (firstn b l)), firstn_firstn, Nat.min_l by assumption. apply in_or_app. left. assumption.
Qed.

Theorem stages_grown : forall topo filt c k d g g', topo_ok topo -> good_sigla c -> k + d < length c ->
  stage topo filt c k = Ok g -> stage topo filt c (k + d) = Ok g' -> grown (map w_sigil (firstn (S k) c)) g g'.
Proof.
  intros topo filt c k d. induction d as [|d IH]; intros g g' TO GS L H1 H2.
  - rewrite Nat.add_0_r in H2. assert (g' = g) by congruence. subst g'. apply grown_refl.
  - rewrite Nat.add_succ_r in H2, L. destruct (stage_pred _ _ _ _ _ H2) as [h K].
    apply (grown_trans _ (map w_sigil (firstn (S (k + d)) c)) _ h); [apply IH; auto; lia|apply (stage_grown topo filt c (k + d)); assumption|].
    intros s Hs. rewrite <- firstn_map in *. eapply firstn_incl; [|exact Hs]. lia.
Qed.
