(** The tokens that the aligner puts on vertices of the graph are the hits of an optimal walk. *)
From Verif Require Import Py Lib TokenModel SuffixModel IndexModel GraphModel AlignModel GraphSpec
  GraphProof MergeProof RankProof AlignProof AlignerProof WalkSpec WalkProof.
From Coq Require Import Sorted.
Open Scope list_scope.
Open Scope nat_scope.

Notation match_at m s := (get_match m (Z.of_nat (s_y s) - 1) (Z.of_nat (s_x s) - 1)).

Lemma align_fold_complete : forall m p0 l al0 us0 al us,
  foldM (align_step m) l (al0, us0) = Ok (al, us) ->
  (forall s v t, In s l -> is_match s = true -> match_at m s = Ok (v, t) -> tk_pos t + 1 = p0 + s_y s) ->
  StronglySorted (fun a b => s_y b < s_y a /\ s_x b <= s_x a) (filter is_match l) ->
  (forall p s, In p (map fst al0) -> In s l -> is_match s = true -> p0 + s_y s <= p) ->
  (forall p v, dget Nat.eqb p al0 = Some v -> dget Nat.eqb p al = Some v) /\
  (forall s v t, In s l -> is_match s = true -> match_at m s = Ok (v, t) -> In v us0 \/
     exists s' t', In s' l /\ is_match s' = true /\ s_y s <= s_y s' /\ match_at m s' = Ok (v, t') /\ dget Nat.eqb (tk_pos t') al = Some v).
Proof.
  intros m p0. induction l as [|s l IH]; intros al0 us0 al us F HP ST K.
  - cbn in F. injection F as <- <-. split; [auto|]. intros s v t [].
  - cbn [foldM] in F. apply bind_ok in F as [[al1 us1] [E F]]. cbn [filter] in ST.
    assert (HP' : forall s v t, In s l -> is_match s = true -> match_at m s = Ok (v, t) -> tk_pos t + 1 = p0 + s_y s)
      by (intros; apply HP with v; simpl; auto).
    destruct (is_match s) eqn:Es.
    + inversion ST as [|? ? ST' FA]; subst. rewrite Forall_forall in FA.
      unfold align_step in E. unfold is_match in Es. destruct (s_type s) eqn:Et; try discriminate. clear Es.
      assert (Es : is_match s = true) by (unfold is_match; rewrite Et; reflexivity).
      apply bind_ok in E as [[v t] [G E]].
      destruct (existsb (Nat.eqb v) us0) eqn:Eu.
      * injection E as <- <-. apply (existsb_eqb _ nat_eqb_ok) in Eu.
        destruct (IH _ _ _ _ F HP' ST') as [A B]; [intros; apply K; simpl; auto|].
        split; [exact A|]. intros s1 v1 t1 [<-|Hs1] M1 G1.
        -- left. rewrite G in G1. injection G1 as <- <-. assumption.
        -- destruct (B s1 v1 t1 Hs1 M1 G1) as [Q|[s' [t' [Q1 Q]]]]; [auto|]. right. exists s', t'. simpl. auto.
      * injection E as <- <-. pose proof (HP s v t (or_introl eq_refl) Es G) as PT.
        destruct (IH _ _ _ _ F HP' ST') as [A B].
        { intros p s1 Hp Hs1 M1. rewrite (dset_In_key _ nat_eqb_ok) in Hp.
          assert (Q : In s1 (filter is_match l)) by (apply filter_In; auto). apply FA in Q.
          destruct Hp as [->|Hp]; [lia|]. apply K; simpl; auto. }
        assert (NK : ~ In (tk_pos t) (map fst al0)).
        { intros C. pose proof (K _ s C (or_introl eq_refl) Es). lia. }
        assert (DV : dget Nat.eqb (tk_pos t) al = Some v).
        { apply A. rewrite (dget_set _ nat_eqb_ok), Nat.eqb_refl. reflexivity. }
        split.
        -- intros p w Hp. apply A. rewrite (dget_set _ nat_eqb_ok). destruct (tk_pos t =? p) eqn:Q; [|assumption].
           apply Nat.eqb_eq in Q. subst p. exfalso. apply NK. apply (dget_In _ nat_eqb_ok) in Hp. apply (in_map fst) in Hp. exact Hp.
        -- intros s1 v1 t1 [<-|Hs1] M1 G1.
           ++ right. exists s, t. rewrite G in G1. injection G1 as <- <-. simpl. auto.
           ++ destruct (B s1 v1 t1 Hs1 M1 G1) as [[->|Q]|[s' [t' [Q1 Q]]]].
              ** right. exists s, t. assert (Q : In s1 (filter is_match l)) by (apply filter_In; auto). apply FA in Q.
                 simpl. repeat split; auto. lia.
              ** auto.
              ** right. exists s', t'. simpl. auto.
    + assert (E' : (al0, us0) = (al1, us1)).
      { unfold align_step in E. unfold is_match in Es. destruct (s_type s); try discriminate; injection E as <- <-; reflexivity. }
      injection E' as <- <-.
      destruct (IH _ _ _ _ F HP' ST) as [A B]; [intros; apply K; simpl; auto|].
      split; [exact A|]. intros s1 v1 t1 [<-|Hs1] M1 G1; [congruence|].
      destruct (B s1 v1 t1 Hs1 M1 G1) as [Q|[s' [t' [Q1 Q]]]]; [auto|]. right. exists s', t'. simpl. auto.
Qed.

Section Traceback.
  Variables (g : graph) (W : list wpath) (rk : vid -> nat) (mm : nat) (l : list vid).
  Variables (ts : list token) (p0 : nat) (m : cube).
  Hypothesis GI : graph_of g W.
  Hypothesis RO : rank_ok g rk mm l.
  Hypothesis NE : W <> [].
  Hypothesis HP : map tk_pos ts = seq p0 (length ts).
  Hypothesis CE : forall y x v t, dget coord_eqb (Z.of_nat y, x) m = Some (v, t) -> y < length ts ->
    nth_error ts y = Some t /\ In v (vertices g) /\ v <> v_start /\ v <> v_end /\ x = (Z.of_nat (rk v) - 1)%Z.
  Hypothesis CR : forall yx vt, dget coord_eqb yx m = Some vt -> (0 <= fst yx)%Z.

  (** What matches: the cells of the cube. *)
  Definition cube_match (y x : nat) : bool :=
    (1 <=? y) && (y <=? length ts) && (1 <=? x) && has_match m (Z.of_nat y - 1) (Z.of_nat x - 1).

  Lemma tok_pos_nth : forall y t, nth_error ts y = Some t -> tk_pos t = p0 + y.
  Proof.
    intros y t H. assert (L : y < length ts) by (apply nth_error_Some; congruence).
    assert (E : nth_error (map tk_pos ts) y = Some (tk_pos t)) by (rewrite nth_error_map, H; reflexivity).
    rewrite HP in E. rewrite (nth_error_nth' _ 0) in E by (rewrite seq_length; lia). rewrite seq_nth in E by lia. congruence.
  Qed.

  Theorem align_walk : exists aligned ms,
    align_matching_tokens m (fill_table m (mm - 1) (length ts)) = Ok aligned /\
    at_rank (walk cube_match ms) = rk v_end - 1 /\ at_token (walk cube_match ms) = length ts /\
    (forall ms', at_rank (walk cube_match ms') = rk v_end - 1 -> at_token (walk cube_match ms') = length ts ->
       (points (walk cube_match ms') <= points (walk cube_match ms))%Z) /\
    (forall y v, dget Nat.eqb (p0 + y) aligned = Some v -> In (S y, rk v) (met (walk cube_match ms)) /\
       exists t, dget coord_eqb (Z.of_nat y, Z.of_nat (rk v) - 1)%Z m = Some (v, t)) /\
    (forall y x, In (y, x) (met (walk cube_match ms)) -> 1 <= y <= length ts /\ 1 <= x < mm - 1 /\
       exists y' v t t', y <= y' <= length ts /\ In (y', x) (met (walk cube_match ms)) /\ rk v = x /\
         dget Nat.eqb (p0 + y' - 1) aligned = Some v /\
         dget coord_eqb (Z.of_nat (y - 1), Z.of_nat x - 1)%Z m = Some (v, t) /\
         dget coord_eqb (Z.of_nat (y' - 1), Z.of_nat x - 1)%Z m = Some (v, t')) /\
    preferred cube_match ms.
  Proof.
    unfold align_matching_tokens. pose proof (cols_eq g W rk mm l GI RO NE) as CEQ.
    pose proof (cols_pos g W rk mm l GI RO NE) as C1. set (cols := mm - 1) in *. set (rows := length ts) in *.
    assert (R0 : exists r0, nth_error (fill_table m cols rows) 0 = Some r0 /\ length r0 = cols).
    { destruct (nth_error_lt_ex (fill_table m cols rows) 0) as [r0 H0]; [rewrite fill_table_rows; lia|].
      exists r0. split; auto. apply (fill_row_length m cols rows C1 0). assumption. }
    destruct R0 as [r0 [H0 L0]]. unfold aget at 1. rewrite H0. cbn [bind]. rewrite L0, fill_table_rows.
    replace (S rows - 1) with rows by lia.
    destruct (score_iter_trace m cols rows C1 (cols - 1 + rows) (cols - 1) rows) as [tr [E1 T1]]; try lia.
    rewrite E1. cbn [bind].
    destruct (align_fold m tr [] []) as [al [us [E2 [INJ SND]]]].
    { intros s Hs Hm. apply (trace_match m cols rows C1 _ _ _ s T1 Hs Hm). }
    { intros p v H. discriminate. }
    { intros p1 p2 v H. discriminate. }
    rewrite E2. cbn [bind].
    assert (MG : forall s v t, In s tr -> is_match s = true -> match_at m s = Ok (v, t) ->
      1 <= s_y s <= rows /\ nth_error ts (s_y s - 1) = Some t /\ s_x s = rk v /\
      dget coord_eqb (Z.of_nat (s_y s - 1), Z.of_nat (s_x s) - 1)%Z m = Some (v, t)).
    { intros s v t S1 S2 S4. destruct (trace_match m cols rows C1 _ _ _ s T1 S1 S2) as [_ [Y X]].
      unfold get_match in S4. apply (dgetE_ok _) in S4.
      replace (Z.of_nat (s_y s) - 1)%Z with (Z.of_nat (s_y s - 1)) in S4 by lia.
      destruct (CE _ _ _ _ S4) as [D1 [D2 [D3 [D4 D5]]]]; [fold rows; lia|]. repeat split; auto; lia. }
    destruct (align_fold_complete m p0 tr [] [] al us E2) as [_ CMP].
    { intros s v t S1 S2 S3. destruct (MG s v t S1 S2 S3) as [A [B _]]. apply tok_pos_nth in B. lia. }
    { apply (trace_sorted m cols rows C1 _ _ _ T1). }
    { intros p s []. }
    assert (MM : forall y x, 1 <= y <= rows -> 1 <= x < cols -> has_match m (Z.of_nat y - 1) (Z.of_nat x - 1) = cube_match y x).
    { intros y x Hy Hx. unfold cube_match. fold rows. replace (1 <=? y) with true by (symmetry; apply Nat.leb_le; lia).
      replace (y <=? rows) with true by (symmetry; apply Nat.leb_le; lia).
      replace (1 <=? x) with true by (symmetry; apply Nat.leb_le; lia). reflexivity. }
    assert (N0 : forall y, cube_match y 0 = false).
    { intros y. unfold cube_match. replace (1 <=? 0) with false by reflexivity. rewrite andb_false_r. reflexivity. }
    assert (MN : forall x, has_match m (-1) x = false).
    { intros x. unfold has_match, dmem. destruct (dget coord_eqb ((-1)%Z, x) m) eqn:Q; [|reflexivity].
      apply CR in Q. cbn in Q. lia. }
    destruct (cell_ex m cols rows C1 rows (cols - 1)) as [s0 H00]; try lia.
    destruct (trace_walk m cols rows cube_match C1 MM (fun x => eq_refl) N0 MN _ _ _ s0 T1 H00) as [ms [A1 [A2 [A3 [A4 A5]]]]].
    exists al, ms. split; [reflexivity|]. rewrite <- CEQ. fold cols. split; [lia|]. split; [assumption|]. split; [|split; [|split; [|exact A5]]].
    - intros ms' B1 B2. rewrite A3.
      apply (walk_bound m cols rows cube_match C1 MM (fun x => eq_refl) N0 MN ms' (cols - 1) rows s0); auto.
    - intros y v D. destruct (SND _ _ D) as [Q|[s [t [S1 [S2 [S3 S4]]]]]]; [discriminate|].
      destruct (MG s v t S1 S2 S4) as [B1 [B2 [B3 B4]]]. pose proof (tok_pos_nth _ _ B2).
      assert (s_y s = S y) by lia. rewrite A4, <- in_rev. split.
      + apply in_map_iff. exists s. rewrite B3, H1. split; [reflexivity|]. apply filter_In. auto.
      + exists t. rewrite <- B3. replace y with (s_y s - 1) by lia. assumption.
    - intros y x H. rewrite A4, <- in_rev in H. apply in_map_iff in H as [s [Q H]]. injection Q as <- <-.
      apply filter_In in H as [H1 H2]. destruct (trace_match m cols rows C1 _ _ _ s T1 H1 H2) as [X1 [X2 X3]].
      unfold has_match, dmem in X1.
      destruct (dget coord_eqb (Z.of_nat (s_y s) - 1, Z.of_nat (s_x s) - 1)%Z m) as [[v t]|] eqn:G; [|discriminate].
      assert (G' : match_at m s = Ok (v, t)) by (unfold get_match, dgetE; rewrite G; reflexivity).
      destruct (MG s v t H1 H2 G') as [B1 [B2 [B3 B4]]].
      destruct (CE _ _ _ _ B4) as [_ [V1 [V2 _]]]; [fold rows; lia|].
      assert (rk v <> 0). { intros C. apply V2. apply (rank_zero g W rk mm l GI RO NE v V1 C). }
      split; [lia|]. split; [lia|].
      destruct (CMP s v t H1 H2 G') as [[]|[s' [t' [Q1 [Q2 [Q3 [Q4 Q5]]]]]]].
      destruct (MG s' v t' Q1 Q2 Q4) as [D1 [D2 [D3 D4]]].
      exists (s_y s'), v, t, t'. split; [lia|]. split.
      + rewrite A4, <- in_rev. apply in_map_iff. exists s'. rewrite D3, B3. split; [reflexivity|]. apply filter_In. auto.
      + split; [congruence|]. pose proof (tok_pos_nth _ _ D2). split; [replace (p0 + s_y s' - 1) with (tk_pos t') by lia; assumption|].
        split; [assumption|]. rewrite B3, <- D3. assumption.
  Qed.
End Traceback.
