(** The table of two witnesses with segmentation (C104). *)
From Verif Require Import Py TokenModel SuffixModel IndexModel GraphModel AlignModel TableModel NearModel ExportModel
  CollateModel Lib GraphSpec TableSpec CollateSpec Samples TopoProof CommonProof PairSpec ChosenSpec PairProof Props_pair Props_exact SegTableSpec SegTableProof.
From Coq Require Import QArith Sorted.
Open Scope list_scope.
Open Scope nat_scope.

(** ** C104: what segmentation does to the table of two witnesses.
    There are pairs of positions with equal readings, going upwards in both witnesses.  The table with
    segmentation has one column for each run of pairs that follow each other directly in both texts, which is
    not variant, and one variant column for all that stands between two such runs (or before the first, or after
    the last).  The table of the same witnesses without segmentation has a column for each of these same pairs.
    Without a property filter, and where no two neighbouring tokens of the second witness have the same reading,
    no other way of pairing has a better balance of paired and unpaired positions.  Which pairs are chosen is said
    by [chosen_pairs] (C106). *)
Theorem C104_segmented : forall cc topo ratio w1 w2 o t, topo_ok topo -> good_sigla [w1; w2] ->
  o_segmentation o = true -> o_near o = false -> collate cc topo ratio [w1; w2] o = Ok (OTable t) ->
  exists P, agreeing (readings w1) (readings w2) P /\
    (let C := stretches 0 0 0 0 (length (w_toks w1)) (length (w_toks w2)) P in
     (exists c1 c2, t_rows t = [{| r_header := w_sigil w1; r_cells := c1 |}; {| r_header := w_sigil w2; r_cells := c2 |}] /\
       Forall2 (fun s c => shows_all w1 (snd (fst s)) c) C c1 /\ Forall2 (fun s c => shows_all w2 (snd s) c) C c2) /\
     map c_variant (t_columns t) = map (fun s => negb (fst (fst s))) C) /\
    (forall o0 t0, o_segmentation o0 = false -> o_near o0 = false -> o_filter o0 = o_filter o -> o_transp o0 = o_transp o ->
       collate cc topo ratio [w1; w2] o0 = Ok (OTable t0) ->
       let C := layout 0 0 (length (w_toks w1)) (length (w_toks w2)) P in
       (exists c1 c2, t_rows t0 = [{| r_header := w_sigil w1; r_cells := c1 |}; {| r_header := w_sigil w2; r_cells := c2 |}] /\
         Forall2 (shows w1) (map fst C) c1 /\ Forall2 (shows w2) (map snd C) c2) /\
       Forall2 (fun c col => c_variant col = false <-> exists x y, c = (Some x, Some y) /\ In (x, y) P) C (t_columns t0)) /\
    (o_filter o = None -> no_doublets (readings w2) -> forall P', agreeing (readings w1) (readings w2) P' ->
      (balance (length (w_toks w1)) (length (w_toks w2)) P' <= balance (length (w_toks w1)) (length (w_toks w2)) P)%Z) /\
    (o_filter o = None -> P = chosen_pairs (readings w1) (readings w2)).
Proof.
  intros cc topo ratio w1 w2 o t TO G Hs Hn H. destruct (segmented_table cc topo ratio TO w1 w2 o t G Hs Hn H) as [P [A [B [C D]]]].
  exists P. split; [exact A|]. split; [exact B|]. split; [|exact D]. intros o0 t0 Z1 Z2 Z3 Z4 Z5. destruct (C o0 t0 Z1 Z2 Z3 Z4 Z5) as [c1 [c2 [Q1 [Q2 [Q3 Q4]]]]]. cbv zeta.
  split; [exists c1, c2; split; [exact Q1|split; [exact Q2|exact Q3]]|].
  clear - Q4. revert Q4. generalize (t_columns t0). induction (layout 0 0 (length (w_toks w1)) (length (w_toks w2)) P) as [|c L IH]; intros [|col cols] Q; try discriminate; [constructor|].
  cbn [map] in Q. injection Q as Q1 Q2. constructor; [|apply IH; exact Q2]. rewrite Q1, <- paired_iff. destruct (paired P c); cbn; intuition congruence.
Qed.
Print Assumptions C104_segmented.

(** *** The columns *)
Lemma positions_nth : forall i x k u, nth_error (positions i x) k = Some u -> u = i + k /\ i + k < x.
Proof.
  intros i x k u H. unfold positions in H. assert (k < x - i) by (rewrite <- (seq_length (x - i) i); apply nth_error_Some; congruence).
  apply nth_error_nth with (d := 0) in H. rewrite seq_nth in H by assumption. lia.
Qed.
Lemma gap_nth : forall i x j y k, i + k < x -> j + k < y -> nth_error (gap i x j y) k = Some (Some (i + k), Some (j + k)).
Proof.
  intros i x j y k A B. unfold gap. rewrite nth_error_map. rewrite (nth_error_nth' _ 0) by (rewrite seq_length; lia). rewrite seq_nth by lia. cbn [option_map].
  replace (0 + k) with k by lia. rewrite (proj2 (Nat.ltb_lt _ _) A), (proj2 (Nat.ltb_lt _ _) B). reflexivity.
Qed.
Lemma unpaired_In : forall i x j y f l1 l2, In (f, l1, l2) (unpaired i x j y) -> f = false /\ l1 = positions i x /\ l2 = positions j y.
Proof. intros i x j y f l1 l2 H. unfold unpaired in H. destruct (_ || _); [|contradiction]. destruct H as [H|[]]. injection H as <- <- <-. auto. Qed.
Lemma run_In : forall a i b j f l1 l2, In (f, l1, l2) (run a i b j) -> f = true /\ a < i /\ l1 = positions a i /\ l2 = positions b j.
Proof. intros a i b j f l1 l2 H. unfold run in H. destruct (a <? i) eqn:E; [|contradiction]. apply Nat.ltb_lt in E. destruct H as [H|[]]. injection H as <- <- <-. auto. Qed.

(** In a variant column the tokens side by side are none of the pairs, and stand side by side without segmentation too. *)
Lemma stretches_variant : forall P a b i j n m l1 l2 k u v, StronglySorted (fun p q => fst p < fst q /\ snd p < snd q) P -> (forall p, In p P -> i <= fst p) ->
  In (false, l1, l2) (stretches a b i j n m P) -> nth_error l1 k = Some u -> nth_error l2 k = Some v ->
  (exists q, nth_error (layout i j n m P) q = Some (Some u, Some v)) /\ i <= u /\ ~ In (u, v) P.
Proof.
  induction P as [|[x y] P IH]; intros a b i j n m l1 l2 k u v ST BI H K1 K2; cbn [stretches layout] in *.
  - apply in_app_or in H as [H|H]; [apply run_In in H as [H _]; discriminate|]. apply unpaired_In in H as [_ [-> ->]]. apply positions_nth in K1 as [-> L1]. apply positions_nth in K2 as [-> L2].
    split; [exists k; apply gap_nth; assumption|]. split; [lia|intros []].
  - apply StronglySorted_inv in ST as [ST1 ST2]. rewrite Forall_forall in ST2. pose proof (BI _ (or_introl eq_refl)) as BX. cbn [fst] in BX.
    assert (BI' : forall p, In p P -> S x <= fst p) by (intros p Q; specialize (ST2 p Q); cbn in ST2; lia).
    destruct ((x =? i) && (y =? j)) eqn:E.
    + apply andb_true_iff in E as [E1 E2]. apply Nat.eqb_eq in E1, E2. subst x y. destruct (IH _ _ _ _ _ _ _ _ _ _ _ ST1 BI' H K1 K2) as [[q Q] [L N]].
      split; [exists (S q); unfold gap; rewrite !Nat.sub_diag; exact Q|]. split; [lia|]. intros [D|D]; [injection D as -> ->; lia|exact (N D)].
    + apply in_app_or in H as [H|H]; [apply run_In in H as [H _]; discriminate|]. apply in_app_or in H as [H|H].
      * apply unpaired_In in H as [_ [-> ->]]. apply positions_nth in K1 as [-> L1]. apply positions_nth in K2 as [-> L2].
        split; [exists k; rewrite nth_error_app1; [apply gap_nth; assumption|]; rewrite Props_exact.gap_length; lia|]. split; [lia|]. intros [D|D]; [injection D as -> ->; lia|]. specialize (ST2 _ D). cbn in ST2. lia.
      * destruct (IH _ _ _ _ _ _ _ _ _ _ _ ST1 BI' H K1 K2) as [[q Q] [L N]]. split; [exists (length (gap i x j y) + S q); rewrite nth_error_app2 by lia; rewrite Nat.add_comm, Nat.add_sub; exact Q|].
        split; [lia|]. intros [D|D]; [injection D as -> ->; lia|exact (N D)].
Qed.

(** In a column that is not variant the tokens side by side are pairs, and there is at least one. *)
Lemma stretches_invariant : forall P0 P a b i j n m l1 l2, incl P P0 -> i - a = j - b -> a <= i -> b <= j -> (forall k, k < i - a -> In (a + k, b + k) P0) ->
  In (true, l1, l2) (stretches a b i j n m P) -> Forall2 (fun u v => In (u, v) P0) l1 l2 /\ l1 <> [].
Proof.
  intros P0. assert (R : forall a b i j l1 l2, i - a = j - b -> a <= i -> b <= j -> (forall k, k < i - a -> In (a + k, b + k) P0) -> In (true, l1, l2) (run a i b j) ->
    Forall2 (fun u v => In (u, v) P0) l1 l2 /\ l1 <> []).
  { intros a b i j l1 l2 D LA LB K H. apply run_In in H as [_ [L [-> ->]]]. split.
    - apply Forall2_pointwise; [unfold positions; rewrite !seq_length; assumption|]. intros k u v U V. apply positions_nth in U as [-> U]. apply positions_nth in V as [-> V]. apply K. lia.
    - unfold positions. destruct (i - a) eqn:E; [lia|discriminate]. }
  induction P as [|[x y] P IH]; intros a b i j n m l1 l2 I D LA LB K H; cbn [stretches] in H.
  - apply in_app_or in H as [H|H]; [eapply R; eassumption|]. apply unpaired_In in H as [H _]. discriminate.
  - assert (I1 : In (x, y) P0) by (apply I; left; reflexivity). assert (I2 : incl P P0) by (intros q Q; apply I; right; exact Q).
    destruct ((x =? i) && (y =? j)) eqn:E.
    + apply andb_true_iff in E as [E1 E2]. apply Nat.eqb_eq in E1, E2. subst x y. apply (IH a b (S i) (S j) n m l1 l2 I2); [lia|lia|lia| |exact H].
      intros k Q. destruct (Nat.eq_dec k (i - a)) as [->|]; [|apply K; lia]. rewrite D at 2. replace (a + (i - a)) with i by lia. replace (b + (j - b)) with j by lia. exact I1.
    + apply in_app_or in H as [H|H]; [eapply R; eassumption|]. apply in_app_or in H as [H|H]; [apply unpaired_In in H as [H _]; discriminate|].
      apply (IH x y (S x) (S y) n m l1 l2 I2); [lia|lia|lia| |exact H]. intros k Q. replace k with 0 by lia. rewrite !Nat.add_0_r. exact I1.
Qed.

Lemma shows_all_nth : forall w l c, shows_all w l c -> forall ts, c = Some ts -> length l = length ts /\
  forall k t, nth_error ts k = Some t -> exists i t0, nth_error l k = Some i /\ nth_error (w_toks w) i = Some t0 /\ tk_str t = t0_str t0.
Proof.
  intros w l c H ts E. unfold shows_all in H. destruct l as [|i l]; [congruence|]. destruct H as [ts' [E' H]]. rewrite E in E'. injection E' as <-. split; [apply (Forall2_len _ _ _ H)|].
  intros k t K. destruct (Forall2_at _ _ _ _ _ H K) as [u [U1 [t0 [U2 [U3 _]]]]]. exists u, t0. auto.
Qed.

(** ** The tokens side by side in a variant column.
    Without property filter, and where no two neighbouring tokens of the second witness are equal, the
    first, second, ... tokens of the two cells of a variant column have different readings. *)
Theorem C104_side_by_side : forall cc topo ratio w1 w2 o t, topo_ok topo -> good_sigla [w1; w2] ->
  o_segmentation o = true -> o_near o = false -> o_filter o = None -> no_doublets (readings w2) ->
  collate cc topo ratio [w1; w2] o = Ok (OTable t) ->
  exists c1 c2, t_rows t = [{| r_header := w_sigil w1; r_cells := c1 |}; {| r_header := w_sigil w2; r_cells := c2 |}] /\
    forall i col ts1 ts2, nth_error (t_columns t) i = Some col -> nth_error c1 i = Some (Some ts1) -> nth_error c2 i = Some (Some ts2) ->
      (c_variant col = true -> forall k x1 x2, nth_error ts1 k = Some x1 -> nth_error ts2 k = Some x2 -> tk_str x1 <> tk_str x2) /\
      (c_variant col = false -> map tk_str ts1 = map tk_str ts2).
Proof.
  intros cc topo ratio w1 w2 o t TO G Hs Hn Hf ND H.
  destruct (segmented_table cc topo ratio TO w1 w2 o t G Hs Hn H) as [P [[A1 A2] [[[c1 [c2 [R [F1 F2]]]] FC] [_ [OPT _]]]]]. specialize (OPT Hf ND).
  exists c1, c2. split; [exact R|]. intros i col ts1 ts2 Hc N1 N2.
  set (C := stretches 0 0 0 0 (length (w_toks w1)) (length (w_toks w2)) P) in *.
  destruct (Forall2_at _ _ _ _ _ F1 N1) as [[[f l1] l2] [EC SA1]]. destruct (Forall2_at _ _ _ _ _ F2 N2) as [s' [EC' SA2]]. rewrite EC in EC'. injection EC' as <-. cbn [fst snd] in SA1, SA2.
  assert (V : c_variant col = negb f).
  { assert (Q : nth_error (map c_variant (t_columns t)) i = Some (c_variant col)) by (rewrite nth_error_map, Hc; reflexivity). rewrite FC, nth_error_map, EC in Q. cbn in Q. congruence. }
  destruct (shows_all_nth _ _ _ SA1 ts1 eq_refl) as [L1 T1]. destruct (shows_all_nth _ _ _ SA2 ts2 eq_refl) as [L2 T2].
  apply nth_error_In in EC. rewrite V. destruct f; (split; [intros Z; try discriminate Z|intros Z; try discriminate Z]); clear Z.
  - destruct (stretches_invariant P P 0 0 0 0 _ _ l1 l2 (incl_refl P) eq_refl (le_n 0) (le_n 0) ltac:(intros; lia) EC) as [FP _].
    apply list_ext. intros k. rewrite !nth_error_map. pose proof (Forall2_len _ _ _ FP) as L12.
    destruct (nth_error ts1 k) as [x1|] eqn:K1; destruct (nth_error ts2 k) as [x2|] eqn:K2; cbn; [| | |reflexivity].
    + destruct (T1 k x1 K1) as [u [t1 [U1 [U2 ->]]]]. destruct (T2 k x2 K2) as [v [t2 [V1 [V2 ->]]]]. f_equal.
      destruct (Forall2_at _ _ _ _ _ FP V1) as [u' [U1' Q]]. rewrite U1 in U1'. injection U1' as <-. destruct (A2 u v Q) as [s [E1 E2]]. unfold readings in E1, E2.
      rewrite nth_error_map, U2 in E1. rewrite nth_error_map, V2 in E2. cbn in E1, E2. congruence.
    + exfalso. apply nth_error_None in K2. assert (k < length ts1) by (apply nth_error_Some; congruence). lia.
    + exfalso. apply nth_error_None in K1. assert (k < length ts2) by (apply nth_error_Some; congruence). lia.
  - intros k x1 x2 K1 K2 E. destruct (T1 k x1 K1) as [u [t1 [U1 [U2 E1]]]]. destruct (T2 k x2 K2) as [v [t2 [V1 [V2 E2]]]]. rewrite E1, E2 in E.
    destruct (stretches_variant P 0 0 0 0 _ _ l1 l2 k u v A1 ltac:(intros; lia) EC U1 V1) as [[q Q] [_ NI]].
    assert (B : forall p, In p P -> 0 <= fst p < length (w_toks w1) /\ 0 <= snd p < length (w_toks w2)).
    { intros [p q'] Hp. destruct (A2 p q' Hp) as [s [B1 B2]]. unfold readings in B1, B2. cbn [fst snd].
      assert (p < length (map t0_str (w_toks w1))) by (apply nth_error_Some; congruence). assert (q' < length (map t0_str (w_toks w2))) by (apply nth_error_Some; congruence).
      rewrite map_length in *. lia. }
    destruct (pair_inserted P 0 0 _ _ q u v A1 B Q NI) as [_ [_ [P' [Q1 [Q2 [Q3 Q4]]]]]].
    assert (AG : agreeing (readings w1) (readings w2) P').
    { split; [exact Q1|]. intros p q' Hp. destruct (Q2 _ Hp) as [E'|Hp']; [|apply A2; exact Hp']. injection E' as -> ->. exists (t0_str t1). unfold readings.
      rewrite !nth_error_map, U2, V2. cbn. split; [reflexivity|]. rewrite E. reflexivity. }
    specialize (OPT P' AG). unfold balance in OPT. rewrite Q3, Q4 in OPT. lia.
Qed.
Print Assumptions C104_side_by_side.

(** ** C10 with segmentation, for two witnesses: a column is marked variant exactly if one of the witnesses
    has no token there or the readings differ. *)
Theorem C10_two_segmented_partial : forall cc topo ratio w1 w2 o t, topo_ok topo -> good_sigla [w1; w2] ->
  o_segmentation o = true -> o_near o = false -> o_filter o = None -> no_doublets (readings w2) ->
  collate cc topo ratio [w1; w2] o = Ok (OTable t) ->
  forall i col, nth_error (t_columns t) i = Some col ->
    (c_variant col = true <->
     (exists ro, In ro (t_rows t) /\ nth_error (r_cells ro) i = Some None) \/
     (exists ro1 ro2 ts1 ts2, In ro1 (t_rows t) /\ In ro2 (t_rows t) /\
        nth_error (r_cells ro1) i = Some (Some ts1) /\ nth_error (r_cells ro2) i = Some (Some ts2) /\ map tk_str ts1 <> map tk_str ts2)).
Proof.
  intros cc topo ratio w1 w2 o t TO G Hs Hn Hf ND H i col Hc.
  destruct (C104_side_by_side cc topo ratio w1 w2 o t TO G Hs Hn Hf ND H) as [c1 [c2 [R SS]]].
  destruct (segmented_table cc topo ratio TO w1 w2 o t G Hs Hn H) as [P [_ [[[c1' [c2' [R' [F1 F2]]]] FC] _]]]. rewrite R in R'. injection R' as <- <-.
  set (C := stretches 0 0 0 0 (length (w_toks w1)) (length (w_toks w2)) P) in *.
  assert (Q : nth_error (map c_variant (t_columns t)) i = Some (c_variant col)) by (rewrite nth_error_map, Hc; reflexivity). rewrite FC, nth_error_map in Q.
  change (@nth_error (bool * list nat * list nat) C i) with (@nth_error stretch C i) in Q. destruct (nth_error C i) as [[[f l1] l2]|] eqn:EC; [|cbn in Q; discriminate Q]. cbn in Q. injection Q as V.
  destruct (Forall2_at_l _ _ _ _ _ F1 EC) as [x1 [X1 S1]]. destruct (Forall2_at_l _ _ _ _ _ F2 EC) as [x2 [X2 S2]]. cbn [fst snd] in S1, S2. rewrite R.
  assert (NF : f = true -> x1 <> None /\ x2 <> None).
  { intros ->. apply nth_error_In in EC. destruct (stretches_invariant P P 0 0 0 0 _ _ l1 l2 (incl_refl P) eq_refl (le_n 0) (le_n 0) ltac:(intros; lia) EC) as [FP NE].
    inversion FP as [|u v l1' l2' ? ?]; subst; [congruence|]. destruct S1 as [? [S1 _]]. destruct S2 as [? [S2 _]]. split; intros Z; [rewrite Z in S1|rewrite Z in S2]; discriminate. }
  destruct x1 as [ts1|].
  - destruct x2 as [ts2|].
    + destruct (SS i col ts1 ts2 Hc X1 X2) as [W1 W2]. split.
      * intros Z. right. exists {| r_header := w_sigil w1; r_cells := c1 |}, {| r_header := w_sigil w2; r_cells := c2 |}, ts1, ts2.
        split; [left; reflexivity|]. split; [right; left; reflexivity|]. split; [exact X1|]. split; [exact X2|]. intros E.
        assert (NE : ts1 <> []). { destruct (shows_all_nth _ _ _ S1 ts1 eq_refl) as [L _]. unfold shows_all in S1. destruct l1; [discriminate|]. intros Z0. rewrite Z0 in L. discriminate. }
        destruct ts1 as [|y1 ts1]; [congruence|]. destruct ts2 as [|y2 ts2]; [discriminate|]. apply (W1 Z 0 y1 y2 eq_refl eq_refl). injection E as E _. exact E.
      * intros Z. destruct (c_variant col) eqn:VC; [reflexivity|exfalso]. specialize (W2 eq_refl).
        destruct Z as [[ro [IR NR]]|[ro1 [ro2 [u1 [u2 [I1 [I2 [N1 [N2 NE]]]]]]]]].
        -- destruct IR as [<-|[<-|[]]]; cbn [r_cells] in NR; congruence.
        -- apply NE. destruct I1 as [<-|[<-|[]]]; destruct I2 as [<-|[<-|[]]]; cbn [r_cells] in N1, N2; (rewrite X1 in N1 || rewrite X2 in N1); (rewrite X1 in N2 || rewrite X2 in N2); injection N1 as <-; injection N2 as <-; congruence.
    + split; [intros _; left; eexists; split; [right; left; reflexivity|exact X2]|]. intros _. destruct f; [destruct (NF eq_refl); congruence|]. symmetry. exact V.
  - split; [intros _; left; eexists; split; [left; reflexivity|exact X1]|]. intros _. destruct f; [destruct (NF eq_refl); congruence|]. symmetry. exact V.
Qed.
Print Assumptions C10_two_segmented_partial.

(** The hypotheses are met by witnesses with substitutions, an omission and an addition; each of the four pairs is a run of its own. *)
Example C104_example : exists t, good_sigla [left_text; right_text] /\ no_doublets (PairSpec.readings right_text) /\
  collate ascii_cc kahn sample_ratio [left_text; right_text] (seg_options "table") = Ok (OTable t) /\
  map (fun ro => map (option_map (map tk_str)) (r_cells ro)) (t_rows t) =
    [map (option_map (map (fun s => lit s))) [Some ["the"]; Some ["black"]; Some ["cat"]; Some ["sat"]; Some ["on"]; Some ["a"]; Some ["mat"]];
     map (option_map (map (fun s => lit s))) [Some ["the"]; None; Some ["cat"]; Some ["slept"; "soundly"]; Some ["on"]; Some ["the"]; Some ["mat"]]] /\
  map c_variant (t_columns t) = map (fun s => negb (fst (fst s))) (stretches 0 0 0 0 7 7 [(0, 0); (2, 1); (4, 4); (6, 6)]).
Proof.
  destruct (collate ascii_cc kahn sample_ratio [left_text; right_text] (seg_options "table")) as [x|] eqn:E; [|exfalso; vm_compute in E; discriminate].
  vm_compute in E. injection E as <-. eexists.
  split; [split; [repeat constructor; cbn; intuition discriminate|cbn; intuition discriminate]|].
  split; [apply no_doublets_dec; intros k Hk; cbn in Hk; repeat (destruct k as [|k]; [discriminate|]); lia|]. split; [reflexivity|].
  split; reflexivity.
Qed.
Example C104_runs_example : stretches 0 0 0 0 5 4 [(0, 0); (1, 1); (3, 2); (4, 3)] =
  [(true, [0; 1], [0; 1]); (false, [2], []); (true, [3; 4], [2; 3])].
Proof. reflexivity. Qed.
