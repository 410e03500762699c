(** Near matching moves nothing past a word that all witnesses share. *)
From Verif Require Import Py TokenModel SuffixModel IndexModel GraphModel AlignModel TableModel NearModel ExportModel
  CollateModel Lib GraphSpec GraphProof MergeProof RankProof AlignerProof TableSpec TableProof AlignProof IndexProof CollateProof CollateSpec JoinProof ResultProof
  StageProof OutputProof ShapeProof NearProof NearSideSpec.
From Coq Require Import Permutation Relations QArith.
Open Scope list_scope.
Open Scope nat_scope.

Section Side.
  Variables (g : graph) (W : list wpath) (rk : vid -> nat) (m : nat) (l0 : list vid).
  Hypothesis GI : graph_of g W.
  Hypothesis NW : W <> [].
  Hypothesis RO : rank_ok g rk m l0.

  (** A rank with one vertex, which no edge jumps over. *)
  Definition sole (k : nat) : Prop :=
    k < m /\ (forall x y, In x (vertices g) -> In y (vertices g) -> rk x = k -> rk y = k -> x = y) /\
    (forall s v, edge g s v -> k <= rk s \/ rk v <= k).
  Definition same_side (i j : nat) : Prop := forall k, sole k -> (i < k <-> j < k) /\ (k < i <-> k < j).
  Definition sided (r : ranking) : Prop := forall x j, dget Nat.eqb x (by_vertex r) = Some j -> same_side j (rk x).
  Definition near_sided (g' : graph) : Prop := forall a b q, In ((a, b), q) (g_near g') -> same_side (rk a) (rk b).

  Lemma sole_pinned : forall k x, sole k -> In x (vertices g) -> rk x = k -> pinned g rk x.
  Proof.
    intros k x [L [U _]] Hx E. destruct (pinned_rank g W rk m l0 GI NW RO k L) as [u [P R]].
    replace x with u; [exact P|]. apply U; auto. apply (pinned_In g W rk GI u P).
  Qed.

  Lemma base_sided : forall rk' m' l', rank_ok g rk' m' l' -> sided (ranking_for rk' m' l').
  Proof.
    intros rk' m' l' RO' x j D. destruct (rank_unique g W rk' m' l' rk m l0 GI NW RO' RO) as [E _].
    destruct (by_vertex_inv _ _ _ _ _ _ RO' D) as [Hv ->]. rewrite (E x Hv). intros k _. split; reflexivity.
  Qed.

  Lemma near_step_sided : forall r a b q r', sided r -> same_side (rk a) (rk b) -> near_step r ((a, b), q) = Ok r' -> sided r'.
  Proof.
    intros r a b q r' S SS H. unfold near_step, dgetE in H. destruct (dget Nat.eqb a (by_vertex r)) as [ur|] eqn:Da; [|discriminate]. cbn [bind] in H.
    repeat (apply bind_ok in H as [?yy [_ H]]). injection H as <-. intros x j D. cbn [by_vertex] in D. rewrite (dget_set _ nat_eqb_ok) in D.
    destruct (b =? x) eqn:Q; [|apply S; exact D]. apply Nat.eqb_eq in Q. subst x. injection D as <-. intros k K.
    destruct (S a ur Da k K) as [A1 A2]. destruct (SS k K) as [B1 B2]. rewrite A1, A2. auto.
  Qed.

  Variables (topo : graph -> res (list vid)) (ratio : str -> str -> Q).
  Hypothesis TO : topo_ok topo.

  Lemma near_ranking_sided : forall g' r, near_ok g rk g' -> near_sided g' -> ranking_of topo g' = Ok r -> sided r.
  Proof.
    intros g' r [E NE] NS H. unfold ranking_of in H.
    destruct (TO g') as [l [T1 [T2 T3]]].
    { change (vertices g') with (vertices (without_near g')). rewrite E. apply (gi_verts _ _ GI). }
    { intros u v. change (edge g' u v) with (edge (without_near g') u v). change (vertices g') with (vertices (without_near g')). rewrite E. apply (graph_edge_verts g W u v GI). }
    { change (edge_pairs g') with (edge_pairs (without_near g')). rewrite E. apply (gi_edges_nodup _ _ GI). }
    { change (acyclic g') with (acyclic (without_near g')). rewrite E. apply (gi_acyclic _ _ GI). }
    change (vertices g') with (vertices (without_near g')) in T2. rewrite E in T2.
    assert (T3' : forall u v, edge g u v -> before u v l) by (rewrite <- E; exact T3).
    assert (ND : NoDup l) by (apply Permutation_NoDup with (vertices g); [symmetry; assumption | apply (gi_verts _ _ GI)]).
    destruct (rank_fold g l ND) as [rk' [m' [R1 [R2 [R3 R4]]]]]; [intros u v H0 _; apply T3'; assumption|].
    assert (IL : forall v, In v l <-> In v (vertices g)) by (intros v; split; apply Permutation_in; [assumption | symmetry; assumption]).
    assert (RO' : rank_ok g rk' m' l).
    { constructor; auto.
      - intros v Hv. apply R2. apply IL. assumption.
      - intros k Hk. destruct (R3 k Hk) as [v [V1 V2]]. exists v. rewrite <- IL. auto.
      - intros v Hv. apply R4. apply IL. assumption.
      - intros u v Hv. pose proof (rank_of_edge g rk' u v Hv) as Q. rewrite <- R4 in Q; [lia|].
        apply T3' in Hv. apply before_In in Hv as [_ Hv]. assumption. }
    assert (B : foldM (rank_step g') l {| by_vertex := []; by_rank := [] |} = Ok (ranking_for rk' m' l)).
    { rewrite <- R1. rewrite <- E. reflexivity. }
    rewrite T1 in H. cbn [bind] in H. rewrite B in H. cbn [bind] in H.
    assert (F1 : forall es r1 r2, (forall e, In e es -> In e (g_near g')) -> sided r1 -> foldM near_step es r1 = Ok r2 -> sided r2).
    { induction es as [|[[a b] q] es IH]; intros r1 r2 He S1 F; [injection F as <-; exact S1|]. cbn [foldM] in F. apply bind_ok in F as [r3 [F1 F]].
      apply (IH r3 r2); [intros e Hi; apply He; right; exact Hi| |exact F]. apply (near_step_sided r1 a b q r3 S1); [|exact F1]. apply (NS a b q). apply He. left. reflexivity. }
    assert (F : forall L r1 r2, sided r1 -> foldM (fun r v => foldM near_step (in_near_edges g' v) r) L r1 = Ok r2 -> sided r2).
    { induction L as [|v L IH]; intros r1 r2 S1 F; [injection F as <-; exact S1|]. cbn [foldM] in F. apply bind_ok in F as [r3 [F2 F]].
      apply (IH r3 r2); [|exact F]. apply (F1 (in_near_edges g' v) r1 r3); [|exact S1|exact F2]. intros e He. unfold in_near_edges in He. apply filter_In in He as [He _]. exact He. }
    apply (F _ _ _ (base_sided rk' m' l RO') H).
  Qed.

  Lemma near_edge_sided : forall g' r src v lb g2 r2, near_ok g rk g' -> near_sided g' -> placed g rk m r -> sided r -> edge g src v ->
    near_edge_step topo ratio (g', r) ((src, v), lb) = Ok (g2, r2) -> near_ok g rk g2 /\ near_sided g2 /\ placed g rk m r2 /\ sided r2.
  Proof.
    intros g' r src v lb g2 r2 NO NS P S He H.
    destruct (near_edge_total g W rk m l0 GI NW RO topo ratio TO g' r src v lb NO P He) as [g3 [r3 [E [NO2 [P2 C]]]]]. rewrite H in E. injection E as <- <-.
    split; [exact NO2|].
    destruct C as [C|[w [q [kw [ks [kv [EG [R [NP [Dw [Ds [Dv [L [_ Hw]]]]]]]]]]]]]]; [injection C as -> ->; auto|].
    destruct (graph_edge_verts g W src v GI He) as [Hs _].
    assert (SS : same_side (rk w) (rk src)).
    { intros k K. destruct (S w kw Dw k K) as [W1 W2]. destruct (S src ks Ds k K) as [S1 S2]. destruct (S v kv Dv k K) as [V1 V2].
      assert (N : rk src <> k) by (intros C; apply NP; apply (sole_pinned k src K Hs C)).
      destruct K as [_ [_ J]]. specialize (J src v He). split; lia. }
    assert (NS2 : near_sided g2).
    { subst g2. intros a b q' Hi. cbn [connect_near g_near] in Hi.
      assert (Hk : In (a, b) (map fst (dset edge_eqb (w, src) q (g_near g')))) by (apply (in_map fst) in Hi; exact Hi).
      apply (dset_In_key _ edge_eqb_ok) in Hk as [Hk|Hk]; [injection Hk as -> ->; exact SS|].
      apply in_map_iff in Hk as [[[a' b'] q2] [Q1 Q2]]. cbn [fst] in Q1. injection Q1 as -> ->. apply (NS a b q2 Q2). }
    split; [exact NS2|]. split; [exact P2|]. apply (near_ranking_sided g2 r2 NO2 NS2 R).
  Qed.

  Theorem near_match_sided : forall g2 r2, perform_near_match topo ratio g (ranking_for rk m l0) = Ok (g2, r2) -> sided r2.
  Proof.
    intros g2 r2 H. unfold perform_near_match in H. apply bind_ok in H as [l [_ H]]. apply bind_ok in H as [[g3 r3] [F0 H]].
    assert (NO : near_ok g rk g).
    { pose proof (gi_near _ _ GI) as N. split; [destruct g as [a b n d]; cbn in N |- *; subst n; reflexivity|]. rewrite N. intros u v q []. }
    assert (NS : near_sided g) by (intros a b q Hi; rewrite (gi_near _ _ GI) in Hi; destruct Hi).
    assert (F1 : forall es g1 r1 g4 r4, (forall e, In e es -> edge g (fst (fst e)) (snd (fst e))) -> near_ok g rk g1 -> near_sided g1 -> placed g rk m r1 -> sided r1 ->
      foldM (near_edge_step topo ratio) es (g1, r1) = Ok (g4, r4) -> near_ok g rk g4 /\ near_sided g4 /\ placed g rk m r4 /\ sided r4).
    { induction es as [|[[a b] lb] es IHe]; intros g1 r1 g4 r4 He N1 N2 P1 S1 F; [injection F as <- <-; auto|]. cbn [foldM] in F. apply bind_ok in F as [[g5 r5] [F1 F]].
      destruct (near_edge_sided g1 r1 a b lb g5 r5 N1 N2 P1 S1 (He _ (or_introl eq_refl)) F1) as [A1 [A2 [A3 A4]]].
      apply (IHe g5 r5 g4 r4); auto. intros e Hi. apply He. right. exact Hi. }
    assert (F2 : forall L g1 r1 g4 r4, near_ok g rk g1 -> near_sided g1 -> placed g rk m r1 -> sided r1 ->
      foldM (fun st v => foldM (near_edge_step topo ratio) (in_edges (fst st) v) st) L (g1, r1) = Ok (g4, r4) -> near_ok g rk g4 /\ near_sided g4 /\ placed g rk m r4 /\ sided r4).
    { induction L as [|v L IH]; intros g1 r1 g4 r4 N1 N2 P1 S1 F; [injection F as <- <-; auto|]. cbn [foldM fst] in F. apply bind_ok in F as [[g5 r5] [F3 F]].
      destruct (F1 (in_edges g1 v) g1 r1 g5 r5) as [A1 [A2 [A3 A4]]]; auto; [|apply (IH g5 r5 g4 r4); auto].
      intros [[a b] lb] He. unfold in_edges in He. apply filter_In in He as [He _]. cbn [fst snd]. destruct N1 as [N1 _]. rewrite <- N1. apply (in_map fst) in He. exact He. }
    destruct (F2 _ g _ g3 r3 NO NS (base_placed g W rk m l0 GI NW RO rk m l0 RO) (base_sided rk m l0 RO) F0) as [A1 [A2 [A3 A4]]].
    apply bind_ok in H as [r5 [R H]]. injection H as -> <-. apply (near_ranking_sided _ _ A1 A2 R).
  Qed.

  (** A vertex on all paths is alone in its rank and no edge jumps over it. *)
  Lemma on_all_sole : forall u, In u (vertices g) -> (forall p, In p W -> In u (map fst (snd p))) -> (forall x, In x (vertices g) -> rk x = rk u -> x = u) -> sole (rk u).
  Proof.
    intros u Hu ON U. split; [apply (ro_lt _ _ _ _ RO u Hu)|]. split.
    - intros x y Hx Hy Ex Ey. rewrite (U x Hx Ex), (U y Hy Ey). reflexivity.
    - intros s v He. apply (graph_edge_path g W s v GI) in He as [p [Hp Hc]]. apply pairs_In in Hc as [l1 [l2 E]].
      destruct (on_chain p u (ON p Hp)) as [j J].
      assert (I1 : nth_error (chain p) (length l1) = Some s) by (rewrite E, nth_error_app2, Nat.sub_diag by lia; reflexivity).
      assert (I2 : nth_error (chain p) (S (length l1)) = Some v) by (rewrite E, nth_error_app2 by lia; replace (S (length l1) - length l1) with 1 by lia; reflexivity).
      destruct (Nat.lt_trichotomy j (length l1)) as [Q|[Q|Q]].
      + left. apply Nat.lt_le_incl. apply (chain_mono g W rk m l0 GI RO p j (length l1) u s Hp J I1 Q).
      + left. subst j. rewrite J in I1. injection I1 as ->. apply le_n.
      + destruct (Nat.eq_dec j (S (length l1))) as [->|N]; [right; rewrite J in I2; injection I2 as ->; apply le_n|].
        right. apply Nat.lt_le_incl. apply (chain_mono g W rk m l0 GI RO p (S (length l1)) j v u Hp I2 J). lia.
  Qed.

  (** The columns of the table are the ranks between the first and the last. *)
  Lemma placed_col : forall r k q vs, placed g rk m r ->
    (nth_error (filter (fun kv => existsb inner (snd kv)) (by_rank r)) k = Some (q, vs) <-> k < m - 2 /\ q = S k /\ dget Nat.eqb (S k) (by_rank r) = Some vs).
  Proof.
    intros r k q vs P. destruct (placed_ranks g W rk m l0 r GI NW RO P) as [PK M2].
    set (L := filter (fun kv => existsb inner (snd kv)) (by_rank r)) in *.
    assert (A : forall k q vs, nth_error L k = Some (q, vs) -> k < m - 2 /\ q = S k /\ dget Nat.eqb (S k) (by_rank r) = Some vs).
    { clear k q vs. intros k q vs N. pose proof (map_nth_error fst _ _ N) as X. rewrite PK in X. cbn [fst] in X.
      assert (K : k < m - 2) by (rewrite <- (seq_length (m - 2) 1); apply nth_error_Some; rewrite X; discriminate).
      pose proof (nth_error_nth _ _ 0 X) as Y. rewrite seq_nth in Y by assumption. subst q. split; [exact K|]. split; [reflexivity|].
      apply (In_dget _ nat_eqb_ok); [rewrite (pd_keys _ _ _ _ P); apply seq_NoDup|]. apply nth_error_In in N. apply filter_In in N as [N _]. exact N. }
    split; [apply A|]. intros [K [-> D]]. destruct (nth_error L k) as [[q' vs']|] eqn:N.
    - destruct (A _ _ _ N) as [_ [-> D']]. congruence.
    - apply nth_error_None in N. assert (LN : length L = m - 2) by (rewrite <- (map_length fst), PK; apply seq_length). lia.
  Qed.

  Lemma placed_in : forall r, placed g rk m r -> ranks_in (vertices g) r.
  Proof.
    intros r P k vs I v Hv. assert (D : dget Nat.eqb k (by_rank r) = Some vs).
    { apply (In_dget _ nat_eqb_ok); [|assumption]. rewrite (pd_keys _ _ _ _ P). apply seq_NoDup. }
    destruct (pd_lists _ _ _ _ P k vs D) as [_ B]. destruct (pd_at _ _ _ _ P v k (B v Hv)) as [Q _]. exact Q.
  Qed.

  (** A column of the table before near matching that is not variant. *)
  Lemma invariant_col : forall r k q vs, placed g rk m r -> nth_error (filter (fun kv => existsb inner (snd kv)) (by_rank r)) k = Some (q, vs) ->
    c_variant (wcol W (length (map fst W)) vs) = false -> exists u, vs = [u] /\ forall p, In p W -> In u (map fst (snd p)).
  Proof.
    intros r k q vs P N V. cbn [c_variant wcol] in V. apply orb_false_iff in V as [L1 L2].
    apply Nat.ltb_ge in L1. apply negb_false_iff, Nat.eqb_eq in L2.
    apply nth_error_In in N. apply filter_In in N as [_ N]. cbn [snd] in N.
    destruct vs as [|u [|? ?]]; [discriminate| |cbn in L1; lia]. exists u. split; [reflexivity|].
    set (L := put_tokens [] (flat_map (tokens_on W) [u])) in *.
    assert (NK : NoDup (map fst L)) by (apply put_tokens_NoDup; constructor).
    assert (IK : incl (map fst L) (map fst W)).
    { intros x Hx. apply in_map_iff in Hx as [[x' ts] [E Hx]]. cbn [fst] in E. subst x'. unfold L in Hx. apply wcells_In in Hx as [v' [p [_ [H2 [H3 _]]]]].
      apply in_map_iff. exists p. auto. }
    assert (KI : incl (map fst W) (map fst L)).
    { apply NoDup_length_incl; auto. rewrite !map_length in *. lia. }
    intros p Hp. assert (Hs : In (fst p) (map fst L)) by (apply KI; apply in_map; exact Hp).
    destruct (dget_Some_key _ str_eqb_ok _ L Hs) as [ts D]. apply (dget_In _ str_eqb_ok) in D. unfold L in D.
    apply wcells_In in D as [v' [p' [[<-|[]] [H2 [H3 H4]]]]]. replace p with p'; [apply (in_map fst) in H4; exact H4|].
    apply (sigil_unique g W GI); auto.
  Qed.

  (** The cell of a path in a table: filled iff the path has a vertex of this rank. *)
  Lemma cell_filled : forall r p v ts, placed g rk m r -> In p W -> In (v, ts) (snd p) -> exists k l ts', dget Nat.eqb v (by_vertex r) = Some (S k) /\ k < m - 2 /\
    nth_error (filter (fun kv => existsb inner (snd kv)) (by_rank r)) k = Some (S k, l) /\ dget str_eqb (fst p) (put_tokens [] (flat_map (tokens_on W) l)) = Some ts'.
  Proof.
    intros r p v ts P D2 D4. destruct (gi_on _ _ GI p v ts D2 D4) as [Hv _].
    assert (T : dget Nat.eqb v (snd p) = Some ts) by (apply (In_dget _ nat_eqb_ok); [apply (path_uniq g W GI); exact D2|exact D4]).
    assert (IV : inner v = true).
    { destruct (inner v) eqn:IV; [reflexivity|]. exfalso. pose proof (tokens_on_ends g W v GI IV) as TE.
      assert (IT : In (fst p, ts) (tokens_on W v)); [|rewrite TE in IT; destruct IT]. apply tokens_on_In. exists p. auto. }
    destruct (pd_verts _ _ _ _ P v Hv) as [k Dv]. destruct (pd_inner _ _ _ _ P v k IV Dv) as [K1 K2].
    destruct (pd_at _ _ _ _ P v k Dv) as [_ [l [Dl Il]]].
    assert (K : In (fst p) (map fst (put_tokens [] (flat_map (tokens_on W) l)))).
    { apply put_tokens_keys. right. apply in_map_iff. exists (fst p, ts). split; [reflexivity|]. apply in_flat_map. exists v. split; [exact Il|].
      apply tokens_on_In. exists p. auto. }
    destruct (dget_Some_key _ str_eqb_ok (fst p) _ K) as [ts' D']. exists (k - 1), l, ts'. replace (S (k - 1)) with k by lia.
    split; [exact Dv|]. split; [lia|]. split; [|exact D']. apply (proj2 (placed_col r (k - 1) k l P)). replace (S (k - 1)) with k by lia. split; [lia|]. auto.
  Qed.

  (** A column of the table before near matching that is not variant is a rank of one vertex, which all paths have. *)
  Lemma shared_sole : forall x col, nth_error (t_columns (wtable W (map fst W) (ranking_for rk m l0))) x = Some col -> c_variant col = false ->
    exists u, In u (vertices g) /\ rk u = S x /\ x < m - 2 /\ (forall y, In y (vertices g) -> rk y = rk u -> y = u) /\ sole (S x) /\ col = wcol W (length (map fst W)) [u].
  Proof.
    intros x col N V. pose proof (base_placed g W rk m l0 GI NW RO rk m l0 RO) as P0.
    unfold wtable in N. cbn [t_columns] in N. set (L0 := filter (fun kv => existsb inner (snd kv)) (by_rank (ranking_for rk m l0))) in *.
    rewrite nth_error_map in N. destruct (nth_error L0 x) as [[q vs]|] eqn:N0; [|discriminate]. cbn [option_map snd] in N. injection N as <-.
    destruct (invariant_col _ x q vs P0 N0 V) as [u [-> ON]].
    pose proof (proj1 (placed_col _ x q [u] P0) N0) as [X [-> D0]].
    destruct (pd_lists _ _ _ _ P0 _ _ D0) as [_ B0]. pose proof (B0 u (or_introl eq_refl)) as Du.
    destruct (by_vertex_inv _ _ _ _ _ _ RO Du) as [Hu Ru].
    assert (U : forall y, In y (vertices g) -> rk y = rk u -> y = u).
    { intros y Hy E. destruct (pd_at _ _ _ _ P0 y (rk y) (by_vertex_get _ _ _ _ _ RO Hy)) as [_ [l [D1 I1]]]. rewrite E, <- Ru, D0 in D1. injection D1 as <-.
      destruct I1 as [I1|[]]. congruence. }
    exists u. split; [exact Hu|]. split; [congruence|]. split; [exact X|]. split; [exact U|]. split; [rewrite Ru; apply on_all_sole; assumption|reflexivity].
  Qed.

  (** Such a column stays as it is. *)
  Lemma shared_stays : forall r x col, placed g rk m r -> sided r ->
    nth_error (t_columns (wtable W (map fst W) (ranking_for rk m l0))) x = Some col -> c_variant col = false ->
    nth_error (t_columns (wtable W (map fst W) r)) x = Some col.
  Proof.
    intros r x col P SD N V. destruct (shared_sole x col N V) as [u [Hu [Ru [X [U [SO ->]]]]]].
    unfold wtable. cbn [t_columns]. set (L := filter (fun kv => existsb inner (snd kv)) (by_rank r)).
    destruct (pd_at _ _ _ _ P u (rk u)) as [_ [l [D1 I1]]].
    { apply (pd_pinned _ _ _ _ P). apply (sole_pinned (S x) u SO Hu Ru). }
    rewrite Ru in D1. destruct (pd_lists _ _ _ _ P _ _ D1) as [NDl B1].
    assert (A : forall v, In v l -> v = u).
    { intros v Hv. specialize (B1 v Hv). destruct (SD v _ B1 _ SO) as [S1 S2]. destruct (pd_at _ _ _ _ P v _ B1) as [Hx _]. apply U; [exact Hx|]. lia. }
    assert (l = [u]) as ->.
    { destruct l as [|a l]; [destruct I1|]. rewrite (A a (or_introl eq_refl)) in *. f_equal. destruct l as [|b l]; [reflexivity|].
      inversion NDl as [|? ? C _]; subst. exfalso. apply C. left. apply A. right. left. reflexivity. }
    pose proof (proj2 (placed_col r x (S x) [u] P) (conj X (conj eq_refl D1))) as EL. fold L in EL. rewrite nth_error_map, EL. reflexivity.
  Qed.

  (** A cell of a table comes from a vertex of its rank on the path of the row. *)
  Lemma cell_from : forall r i ro y ts, placed g rk m r -> nth_error (t_rows (wtable W (map fst W) r)) i = Some ro -> nth_error (r_cells ro) y = Some (Some ts) ->
    exists p v, nth_error W i = Some p /\ In (v, ts) (snd p) /\ dget Nat.eqb v (by_vertex r) = Some (S y).
  Proof.
    intros r i ro y ts P HR HC. unfold wtable in HR. cbn [t_rows] in HR. rewrite map_map, nth_error_map in HR. match type of HR with option_map _ ?e = _ => destruct e as [p|] eqn:EP; [|discriminate] end.
    cbn [option_map] in HR. injection HR as <-. cbn [construct_row r_cells] in HC. rewrite map_map, nth_error_map in HC.
    destruct (nth_error (filter (fun kv => existsb inner (snd kv)) (by_rank r)) y) as [[q vs]|] eqn:EL; [|discriminate].
    cbn [option_map snd wcol c_cells] in HC. injection HC as D. apply (dget_In _ str_eqb_ok) in D. apply wcells_In in D as [v [p' [D1 [D2 [D3 D4]]]]].
    assert (p' = p) by (apply (sigil_unique g W GI); auto; apply nth_error_In in EP; exact EP). subst p'.
    exists p, v. split; [exact EP|]. split; [exact D4|].
    pose proof (proj1 (placed_col r y q vs P) EL) as [Y [-> DY]]. destruct (pd_lists _ _ _ _ P _ _ DY) as [_ BY]. apply (BY v D1).
  Qed.

  (** The cell where a vertex of the path went is filled. *)
  Lemma cell_to : forall r i p v ts, placed g rk m r -> nth_error W i = Some p -> In (v, ts) (snd p) ->
    exists ro y ts', dget Nat.eqb v (by_vertex r) = Some (S y) /\ nth_error (t_rows (wtable W (map fst W) r)) i = Some ro /\ nth_error (r_cells ro) y = Some (Some ts').
  Proof.
    intros r i p v ts P EP D4. destruct (cell_filled r p v ts P (nth_error_In _ _ EP) D4) as [k [l [ts' [Dv [_ [EL D]]]]]].
    eexists. exists k, ts'. split; [exact Dv|]. split.
    - unfold wtable. cbn [t_rows]. rewrite map_map. apply (map_nth_error _ _ _ EP).
    - cbn [construct_row r_cells]. rewrite map_map, nth_error_map, EL. cbn [option_map snd wcol c_cells]. rewrite D. reflexivity.
  Qed.

  (** Before near matching a path has one vertex of a rank. *)
  Lemma cell_at : forall i p v ts ro z ts', nth_error W i = Some p -> In (v, ts) (snd p) -> rk v = S z ->
    nth_error (t_rows (wtable W (map fst W) (ranking_for rk m l0))) i = Some ro -> nth_error (r_cells ro) z = Some (Some ts') -> ts' = ts.
  Proof.
    intros i p v ts ro z ts' EP D4 RZ HR HC. pose proof (base_placed g W rk m l0 GI NW RO rk m l0 RO) as P0. pose proof (nth_error_In _ _ EP) as D2.
    destruct (cell_from _ i ro z ts' P0 HR HC) as [p' [v' [EP' [E4 Dv']]]]. rewrite EP in EP'. injection EP' as <-.
    destruct (by_vertex_inv _ _ _ _ _ _ RO Dv') as [_ Q].
    assert (v' = v) by (apply (same_rank_path g W rk m l0 GI RO p v' v D2); [apply (in_map fst) in E4; exact E4|apply (in_map fst) in D4; exact D4|congruence]).
    subst v'. pose proof (In_dget _ nat_eqb_ok _ _ _ (path_uniq g W GI p D2) D4) as G1. pose proof (In_dget _ nat_eqb_ok _ _ _ (path_uniq g W GI p D2) E4) as G2. congruence.
  Qed.

  (** Around a shared word the table after near matching is the one before. *)
  Lemma sides : forall r, placed g rk m r -> sided r -> let t0 := wtable W (map fst W) (ranking_for rk m l0) in let t := wtable W (map fst W) r in
    (forall i ro y ts, nth_error (t_rows t) i = Some ro -> nth_error (r_cells ro) y = Some (Some ts) ->
      exists ro0 z, nth_error (t_rows t0) i = Some ro0 /\ nth_error (r_cells ro0) z = Some (Some ts) /\ same_sides t0 y z) /\
    (forall i ro0 z ts, nth_error (t_rows t0) i = Some ro0 -> nth_error (r_cells ro0) z = Some (Some ts) ->
      exists ro y ts', nth_error (t_rows t) i = Some ro /\ nth_error (r_cells ro) y = Some (Some ts') /\ same_sides t0 y z).
  Proof.
    intros r P SD t0 t. pose proof (base_placed g W rk m l0 GI NW RO rk m l0 RO) as P0.
    assert (SS : forall v y z, dget Nat.eqb v (by_vertex r) = Some (S y) -> rk v = S z -> same_sides t0 y z).
    { intros v y z Dv RZ x [col [N V]]. destruct (shared_sole x col N V) as [u [_ [_ [_ [_ [SO _]]]]]]. destruct (SD v _ Dv _ SO) as [S1 S2]. split; lia. }
    split.
    - intros i ro y ts HR HC. destruct (cell_from r i ro y ts P HR HC) as [p [v [EP [D4 Dv]]]].
      destruct (cell_to _ i p v ts P0 EP D4) as [ro0 [z [ts' [Dz [R0 C0]]]]]. destruct (by_vertex_inv _ _ _ _ _ _ RO Dz) as [_ RZ].
      exists ro0, z. split; [exact R0|]. split; [|apply (SS v y z Dv (eq_sym RZ))]. rewrite C0, (cell_at i p v ts ro0 z ts' EP D4 (eq_sym RZ) R0 C0). reflexivity.
    - intros i ro0 z ts HR HC. destruct (cell_from _ i ro0 z ts P0 HR HC) as [p [v [EP [D4 Dv]]]]. destruct (by_vertex_inv _ _ _ _ _ _ RO Dv) as [_ RZ].
      destruct (cell_to r i p v ts P EP D4) as [ro [y [ts' [Dy [R1 C1]]]]]. exists ro, y, ts'. split; [exact R1|]. split; [exact C1|]. apply (SS v y z Dy (eq_sym RZ)).
  Qed.
End Side.

Section SideCollate.
  Variables (cc : cclass) (topo : graph -> res (list vid)) (ratio : str -> str -> Q).
  Hypothesis TO : topo_ok topo.

  Theorem near_sides : forall c o t0 t, good_sigla c -> o_segmentation o = false ->
    collate cc topo ratio c (set_near o false) = Ok (OTable t0) -> collate cc topo ratio c (set_near o true) = Ok (OTable t) ->
    (forall x col, nth_error (t_columns t0) x = Some col -> c_variant col = false -> nth_error (t_columns t) x = Some col) /\
    (forall i ro y ts, nth_error (t_rows t) i = Some ro -> nth_error (r_cells ro) y = Some (Some ts) ->
      exists ro0 z, nth_error (t_rows t0) i = Some ro0 /\ nth_error (r_cells ro0) z = Some (Some ts) /\ same_sides t0 y z) /\
    (forall i ro0 z ts, nth_error (t_rows t0) i = Some ro0 -> nth_error (r_cells ro0) z = Some (Some ts) ->
      exists ro y ts', nth_error (t_rows t) i = Some ro /\ nth_error (r_cells ro) y = Some (Some ts') /\ same_sides t0 y z).
  Proof.
    intros c o t0 t [ND NG] Hs H0 H1.
    destruct (collate_table_inv cc topo ratio c _ t0 H0) as [g0 [r0 [A0 B0]]]. destruct (collate_table_inv cc topo ratio c _ t H1) as [g1 [r1 [A1 B1]]].
    unfold collate_graph in A0, A1. cbn [set_near o_astar o_filter o_transp o_near o_segmentation] in *.
    apply bind_ok in A0 as [[ti g2] [A A0]]. rewrite A in A1. cbn [bind] in A1. apply bind_ok in A0 as [r2 [R A0]]. rewrite R in A1. cbn [bind] in *.
    rewrite Hs in *. injection A0 as -> ->. destruct (o_astar o); [discriminate|].
    apply bind_ok in A1 as [[g3 r3] [NM A1]]. injection A1 as -> ->.
    destruct (aligner_spec _ _ _ _ _ _ TO ND NG A) as [_ [_ [st' [W [E [AL [NW CA]]]]]]].
    pose proof (al_graph _ _ _ _ _ AL) as GI. rewrite E in GI. pose proof (carries_sigla _ _ CA) as SG.
    destruct (ranking_spec topo g0 W TO GI) as [rk [m [l [_ [R1 RO]]]]]. rewrite R1 in R. injection R as <-.
    destruct (near_match_total g0 W rk m l GI NW RO topo ratio TO) as [g3 [r3 [N1 [N2 N3]]]]. rewrite NM in N1. injection N1 as <- <-. destruct N2 as [N2 _].
    pose proof (near_match_sided g0 W rk m l GI NW RO topo ratio TO g1 r1 NM) as SD.
    pose proof (base_placed g0 W rk m l GI NW RO rk m l RO) as P0.
    assert (GN : graph_of (without_near g0) W) by (pose proof (gi_near _ _ GI) as NN; destruct g0 as [a b n d]; cbn in NN; subst n; exact GI).
    assert (GN1 : graph_of (without_near g1) W) by (rewrite N2; exact GI).
    rewrite (table_weak g0 W GN _ _ (placed_in g0 rk m _ P0)) in B0. injection B0 as <-.
    assert (RI : ranks_in (vertices g1) r1).
    { change (vertices g1) with (vertices (without_near g1)). rewrite N2. apply (placed_in g0 rk m _ N3). }
    rewrite (table_weak g1 W GN1 _ r1 RI) in B1. injection B1 as <-. rewrite SG.
    split; [intros x col; apply (shared_stays g0 W rk m l GI NW RO r1 x col N3 SD)|]. apply (sides g0 W rk m l GI NW RO r1 N3 SD).
  Qed.
End SideCollate.
