(** What the properties filter guarantees. *)
From Verif Require Import Py TokenModel SuffixModel IndexModel GraphModel AlignModel TableModel NearModel ExportModel
  CollateModel Lib GraphSpec GraphProof MergeProof RankProof TableSpec TableProof IndexProof BlockText InstProof CubeProof
  AlignProof AlignerProof CollateProof JoinProof CollateSpec ResultProof FactsProof.
From Coq Require Import Permutation Relations QArith.
Open Scope list_scope.
Open Scope nat_scope.

Lemma ddel_app_last : forall (d : jdict) k v, ~ In k (map fst d) -> ddel str_eqb k (d ++ [(k, v)]) = d.
Proof.
  induction d as [|[k1 v1] d IH]; intros k v H; cbn [app ddel].
  - rewrite str_eqb_refl. reflexivity.
  - cbn [map fst In] in H. rewrite (eqb_neq _ str_eqb_ok) by (intros ->; auto). rewrite IH; auto.
Qed.
Lemma ddel_app_mid : forall (d : jdict) k v x, ~ In k (map fst d) -> ddel str_eqb k (d ++ (k, v) :: x) = d ++ x.
Proof.
  induction d as [|[k1 v1] d IH]; intros k v x H; cbn [app ddel].
  - rewrite str_eqb_refl. reflexivity.
  - cbn [map fst In] in H. rewrite (eqb_neq _ str_eqb_ok) by (intros ->; auto). rewrite IH; auto.
Qed.

Lemma user_data : forall sg b t, came_from sg b t -> ~ In k_sigil (map fst (t0_data b)) -> ~ In k_pos (map fst (t0_data b)) ->
  filtered_token_data t = Ok (t0_data b).
Proof.
  intros sg b t [_ E] N1 N2. change (lit "_token_array_position") with k_pos in E. change (lit "_sigil") with k_sigil in E.
  unfold filtered_token_data. rewrite E.
  assert (N3 : k_pos <> k_sigil) by discriminate.
  rewrite (dset_new _ str_eqb_ok k_sigil) by assumption.
  rewrite (dset_new _ str_eqb_ok k_pos).
  2:{ rewrite map_app. cbn [map fst]. intros H. apply in_app_or in H as [H|[H|[]]]; auto. }
  rewrite <- app_assoc. cbn [app].
  assert (D1 : forall l, dget str_eqb k_sigil (t0_data b ++ (k_sigil, JStr sg) :: l) = Some (JStr sg)).
  { intros l. rewrite (dget_app _). replace (dget str_eqb k_sigil (t0_data b)) with (@None jval).
    - cbn [dget]. rewrite str_eqb_refl. reflexivity.
    - symmetry. apply (dget_None _ str_eqb_ok). assumption. }
  unfold dgetE at 1. rewrite D1. cbn [bind]. rewrite ddel_app_mid by assumption.
  unfold dgetE. rewrite (dget_app _). replace (dget str_eqb k_pos (t0_data b)) with (@None jval) by (symmetry; apply (dget_None _ str_eqb_ok); assumption).
  cbn [dget]. rewrite str_eqb_refl. cbn [bind]. rewrite ddel_app_last by assumption. reflexivity.
Qed.

Lemma Forall2_nth_ex : forall {A B} (R : A -> B -> Prop) l1 l2 n a, Forall2 R l1 l2 -> nth_error l1 n = Some a ->
  exists b, nth_error l2 n = Some b /\ R a b.
Proof.
  intros A B R l1 l2 n a F. revert n. induction F as [|x y l1 l2 H F IH]; intros [|n] E; try discriminate; cbn [nth_error] in *.
  - injection E as ->. eauto.
  - eauto.
Qed.
Lemma Forall2_nth_ex_r : forall {A B} (R : A -> B -> Prop) l1 l2 n b, Forall2 R l1 l2 -> nth_error l2 n = Some b ->
  exists a, nth_error l1 n = Some a /\ R a b.
Proof.
  intros A B R l1 l2 n b F. revert n. induction F as [|x y l1 l2 H F IH]; intros [|n] E; try discriminate; cbn [nth_error] in *.
  - injection E as ->. eauto.
  - eauto.
Qed.

Section Filter.
  Variables (c : collation) (ti : tindex).
  Hypothesis IX : index_ok c ti.
  Hypothesis TX : index_text_ok ti.

  Lemma stamped_nth : forall c pos n w, nth_error c n = Some w ->
    exists p, nth_error (stamped pos c) n = Some {| iw_sigil := w_sigil w; iw_toks := stamp (w_sigil w) p (w_toks w) |}.
  Proof.
    induction c0 as [|w0 c0 IH]; intros pos [|n] w H; try discriminate; cbn [nth_error stamped] in *.
    - injection H as ->. eauto.
    - eauto.
  Qed.

  Lemma wit_at : forall n w, nth_error c n = Some w ->
    exists iw, nth_error (ti_wits ti) n = Some iw /\ iw_sigil iw = w_sigil w /\ length (iw_toks iw) = length (w_toks w) /\
      forall y b, nth_error (w_toks w) y = Some b -> exists t, nth_error (iw_toks iw) y = Some t /\
        tk_pos t = start_of 0 c n + y /\ nth_error (ti_array ti) (start_of 0 c n + y) = Some t /\ came_from (w_sigil w) b t.
  Proof.
    intros n w H. destruct (stamped_nth c 0 n w H) as [p E]. rewrite <- (ix_wits _ _ IX) in E.
    eexists. split; [exact E|]. cbn [iw_sigil iw_toks]. split; [reflexivity|]. split; [apply stamp_length|].
    intros y b Hb. pose proof E as E'. rewrite (ix_wits _ _ IX) in E'. destruct (stamped_start _ _ _ _ E') as [S1 _]. cbn [iw_toks] in S1.
    assert (L : y < length (stamp (w_sigil w) p (w_toks w))) by (rewrite stamp_length; apply nth_error_Some; congruence).
    destruct (ix_tok_nth c ti IX _ _ y (nth_error_In _ _ E) S1 L) as [t [T1 [T2 T3]]]. cbn [iw_toks] in T1.
    destruct (Forall2_nth_ex _ _ _ _ _ (stamp_came_from (w_sigil w) (w_toks w) p) Hb) as [t' [U1 U2]].
    assert (t' = t) by congruence. subst t'. exists t. auto.
  Qed.

  Variables (f : props_filter) (st : astate) (W : list wpath).
  Hypothesis NK : no_internal_keys c.
  Hypothesis NC : ~ marker_clash (Some f) c.
  Hypothesis AL : al_inv (Some f) ti (ti_wits ti) st W.

  Lemma path_tokens : forall n p y v ts, nth_error W n = Some p -> nth_error (snd p) y = Some (v, ts) ->
    exists iw t, nth_error (ti_wits ti) n = Some iw /\ fst p = iw_sigil iw /\ ts = [t] /\ nth_error (iw_toks iw) y = Some t.
  Proof.
    intros n p y v ts Hn Hy. destruct (Forall2_nth_ex_r _ _ _ _ _ (al_paths _ _ _ _ _ AL) Hn) as [iw [H1 [H2 [path [H3 H4]]]]].
    exists iw. rewrite H4 in Hy. unfold steps in Hy.
    assert (C : forall (l1 : list vid) (l2 : list (list token)) k a b, nth_error (combine l1 l2) k = Some (a, b) -> nth_error l2 k = Some b).
    { clear. induction l1 as [|x l1 IH]; intros [|z l2] [|k] a b H; try discriminate; cbn [combine nth_error] in *; [congruence|eauto]. }
    apply C in Hy. rewrite nth_error_map in Hy. destruct (nth_error (iw_toks iw) y) as [t|] eqn:E; [|discriminate]. exists t.
    split; [assumption|]. split; [assumption|]. split; [cbn in Hy; congruence|reflexivity].
  Qed.

  Theorem filter_accepted : forall n p w y v ts, nth_error W n = Some p -> nth_error c n = Some w ->
    nth_error (snd p) y = Some (v, ts) ->
    (forall p', In p' (firstn n W) -> ~ In v (map fst (snd p'))) \/
    exists n1 p1 w1 x ts1 k, n1 < n /\ nth_error W n1 = Some p1 /\ nth_error c n1 = Some w1 /\
      nth_error (snd p1) x = Some (v, ts1) /\ accepted_at f k w1 x w y.
  Proof.
    intros n p w y v ts Hn Hw Hy. destruct (path_tokens n p y v ts Hn Hy) as [iw [t [I1 [I2 [-> I3]]]]].
    destruct (nth_error_split W n Hn) as [W1 [W2 [EW LW]]].
    assert (FW : firstn n W = W1) by (rewrite EW, <- LW, firstn_app, Nat.sub_diag, firstn_O, firstn_all, app_nil_r; reflexivity).
    destruct (al_matched _ _ _ _ _ AL W1 p W2 v t EW (nth_error_In _ _ Hy)) as [M|M]; [left; rewrite FW; assumption|right].
    destruct M as [p1 [t1 [[wp [t1' [A1 [A2 A3]]]] [M1 [M2 [M3 M4]]]]]].
    cbn [filter_passed] in M4. destruct M4 as [i [tok [oth [d1 [d2 [F1 [F2 [F3 [F4 [F5 [F6 [F7 [F8 F9]]]]]]]]]]]]].
    apply In_nth_error in A1 as [n1 A1]. assert (L1 : n1 < n) by (rewrite <- LW; apply nth_error_Some; congruence).
    assert (A1' : nth_error W n1 = Some wp) by (rewrite EW, nth_error_app1 by lia; assumption).
    apply In_nth_error in A2 as [x A2]. destruct (path_tokens n1 wp x v _ A1' A2) as [iw1 [tt [J1 [J2 [J3 J4]]]]].
    injection J3 as <-.
    pose proof (wits_length c ti IX) as WL.
    assert (Lc1 : n1 < length c) by (rewrite <- WL; apply nth_error_Some; congruence).
    assert (Lc : n < length c) by (rewrite <- WL; apply nth_error_Some; congruence).
    destruct (nth_error_lt_ex c n1 Lc1) as [w1 Hw1].
    destruct (wit_at n w Hw) as [iw' [W1' [W2' [W3 W4]]]]. assert (iw' = iw) by congruence. subst iw'.
    destruct (wit_at n1 w1 Hw1) as [iw' [V1 [V2 [V3 V4]]]]. assert (iw' = iw1) by congruence. subst iw'.
    assert (Ly : y < length (w_toks w)) by (rewrite <- W3; apply nth_error_Some; congruence).
    assert (Lx : x < length (w_toks w1)) by (rewrite <- V3; apply nth_error_Some; congruence).
    destruct (nth_error_lt_ex (w_toks w) y Ly) as [b Hb]. destruct (W4 y b Hb) as [t' [T1 [T2 [T3 T4]]]]. assert (t' = t) by congruence. subst t'.
    destruct (nth_error_lt_ex (w_toks w1) x Lx) as [a Ha]. destruct (V4 x a Ha) as [t' [U1 [U2 [U3 U4]]]]. assert (t' = t1') by congruence. subst t'.
    (* the stretch in the witness *)
    rewrite I2 in F5. destruct (sigil_owner c ti IX n iw _ I1 F5) as [O1 O2].
    assert (IY : i <= y) by lia.
    (* equal text, position by position *)
    set (T := map tk_str (ti_array ti)) in *.
    assert (EQ : forall d, d <= i -> nth_error T (p1 - i + d) = nth_error T (tk_pos t - i + d)).
    { intros d Hd. apply (f_equal (fun l => nth_error l d)) in F6. rewrite !nth_error_firstn in F6.
      assert (Q : (d <? S i) = true) by (apply Nat.ltb_lt; lia). rewrite Q, !nth_error_skipn in F6. exact F6. }
    assert (WT : forall z bz, nth_error (w_toks w) z = Some bz -> nth_error T (start_of 0 c n + z) = Some (t0_str bz)).
    { intros z bz Hz. destruct (W4 z bz Hz) as [tz [_ [_ [Z1 [Z2 _]]]]]. unfold T. rewrite nth_error_map, Z1. cbn. congruence. }
    assert (VT : forall z bz, nth_error (w_toks w1) z = Some bz -> nth_error T (start_of 0 c n1 + z) = Some (t0_str bz)).
    { intros z bz Hz. destruct (V4 z bz Hz) as [tz [_ [_ [Z1 [Z2 _]]]]]. unfold T. rewrite nth_error_map, Z1. cbn. congruence. }
    assert (IXX : i <= x).
    { destruct (le_lt_dec i x) as [Q|Q]; [assumption|]. exfalso. destruct n1 as [|j].
      - assert (S0 : start_of 0 c 0 = 0) by (destruct c; reflexivity). rewrite S0 in *. lia.
      - destruct (nth_error_lt_ex c j) as [wj Hj]; [lia|].
        destruct (marker_at c ti IX j wj Hj) as [M5 _]; [lia|].
        assert (SJ : 0 < start_of 0 c (S j)). { assert (start_of 0 c 0 < start_of 0 c (S j)) by (apply start_of_mono; lia). lia. }
        assert (Lz : y - (x + 1) < length (w_toks w)) by lia. destruct (nth_error_lt_ex _ _ Lz) as [bz Hz].
        specialize (EQ (i - (x + 1))). replace (p1 - i + (i - (x + 1))) with (start_of 0 c (S j) - 1) in EQ by lia.
        replace (tk_pos t - i + (i - (x + 1))) with (start_of 0 c n + (y - (x + 1))) in EQ by lia.
        rewrite (WT _ _ Hz) in EQ. unfold T in EQ. rewrite nth_error_map, M5 in EQ. cbn [option_map] in EQ.
        destruct (W4 _ bz Hz) as [tz [Z1 [_ [_ [Z2 _]]]]].
        apply (no_clash_wits c ti (Some f) IX NC n iw tz j I1 (nth_error_In _ _ Z1)); [lia|left; lia|].
        assert (EQ' : Some (tk_str (marker j (start_of 0 c (S j) - 1) (w_sigil wj))) = Some (t0_str bz)) by (apply EQ; lia).
        injection EQ' as EQ'. rewrite Z2, <- EQ'. reflexivity. }
    exists n1, wp, w1, x, [t1'], i. split; [assumption|]. split; [assumption|]. split; [assumption|]. split; [assumption|].
    split; [assumption|]. split; [assumption|]. split.
    - destruct (nth_error_lt_ex (w_toks w1) (x - i)) as [a0 Ha0]; [lia|]. exists b, a0. split; [assumption|]. split; [assumption|].
      destruct (V4 _ a0 Ha0) as [u0 [_ [_ [Y1 Y2]]]].
      assert (E1 : tok = t). { rewrite T2 in F3. congruence. } subst tok.
      assert (E2 : oth = u0). { replace (p1 - i) with (start_of 0 c n1 + (x - i)) in F4 by lia. congruence. } subst oth.
      assert (In w c) by (apply nth_error_In with n; assumption). assert (In w1 c) by (apply nth_error_In with n1; assumption).
      destruct (NK w b) as [K1 K2]; auto; [apply nth_error_In with y; assumption|].
      destruct (NK w1 a0) as [K3 K4]; auto; [apply nth_error_In with (x - i); assumption|].
      rewrite (user_data _ _ _ T4 K1 K2) in F7. rewrite (user_data _ _ _ Y2 K3 K4) in F8. congruence.
    - intros d Hd. destruct (nth_error_lt_ex (w_toks w) (y - d)) as [bz Hz]; [lia|]. destruct (nth_error_lt_ex (w_toks w1) (x - d)) as [az Az]; [lia|].
      exists bz, az. split; [assumption|]. split; [assumption|]. specialize (EQ (i - d)).
      replace (p1 - i + (i - d)) with (start_of 0 c n1 + (x - d)) in EQ by lia.
      replace (tk_pos t - i + (i - d)) with (start_of 0 c n + (y - d)) in EQ by lia.
      rewrite (WT _ _ Hz), (VT _ _ Az) in EQ. assert (Some (t0_str az) = Some (t0_str bz)) by (apply EQ; lia). congruence.
  Qed.
End Filter.

Theorem filter_spec : forall cc topo ratio c o f g r, topo_ok topo -> good_sigla c -> no_internal_keys c ->
  o_filter o = Some f -> o_segmentation o = false -> collate_graph cc topo ratio c o = Ok (g, r) ->
  exists W, Forall2 carries c W /\ made_of_paths g W /\
    forall n p w y v ts, nth_error W n = Some p -> nth_error c n = Some w -> nth_error (snd p) y = Some (v, ts) ->
      (forall p', In p' (firstn n W) -> ~ In v (map fst (snd p'))) \/
      exists n1 p1 w1 x ts1 k, n1 < n /\ nth_error W n1 = Some p1 /\ nth_error c n1 = Some w1 /\
        nth_error (snd p1) x = Some (v, ts1) /\ accepted_at f k w1 x w y.
Proof.
  intros cc topo ratio c o f g r TO [ND NE] NK Hf Hs H.
  destruct (result_spec cc topo ratio TO c o g r ND NE H) as [ti2 [st2 [W0 [W [part RS]]]]].
  pose proof (jo_graph _ _ _ _ _ _ (rs_joined _ _ _ _ _ _ _ _ _ _ _ RS)) as GI.
  pose proof (rs_carries _ _ _ _ _ _ _ _ _ _ _ RS) as CA. destruct (rs_plain _ _ _ _ _ _ _ _ _ _ _ RS Hs) as [_ [-> _]].
  exists W0. split; [assumption|]. split.
  - apply graph_made_of_paths; [|assumption]. apply (carries_nonempty c); [|assumption]. apply (collate_nonempty cc topo ratio c o g r H).
  - pose proof (rs_index _ _ _ _ _ _ _ _ _ _ _ RS) as IX.
    pose proof (rs_aligner _ _ _ _ _ _ _ _ _ _ _ RS) as AL. rewrite Hf in AL.
    assert (NC : ~ marker_clash (Some f) c).
    { intros C. rewrite <- Hf in C. apply (clash_fails cc topo ratio TO c o (g, r) ND NE C H). }
    intros n p w y v ts H1 H2 H3. apply (filter_accepted c ti2 IX f st2 W0 NK NC AL n p w y v ts H1 H2 H3).
Qed.
