(** Near matching never fails, and the longest path keeps its ranks. *)
From Verif Require Import Py TokenModel SuffixModel IndexModel GraphModel AlignModel TableModel NearModel ExportModel
  CollateModel Lib GraphSpec GraphProof MergeProof RankProof AlignerProof TableSpec TableProof AlignProof CollateProof CollateSpec ResultProof StageProof OutputProof.
From Coq Require Import Permutation Relations QArith.
Open Scope list_scope.
Open Scope nat_scope.

(** Vertices on a longest path to the end. *)
Inductive pinned (g : graph) (rk : vid -> nat) : vid -> Prop :=
| pin_end : pinned g rk v_end
| pin_step : forall u v, pinned g rk v -> edge g u v -> rk v = S (rk u) -> pinned g rk u.

(** A ranking in which every vertex has one rank and every rank below [m] is in use. *)
Record placed (g : graph) (rk : vid -> nat) (m : nat) (r : ranking) : Prop := {
  pd_verts : forall v, In v (vertices g) -> exists k, dget Nat.eqb v (by_vertex r) = Some k;
  pd_keys : map fst (by_rank r) = seq 0 m;
  pd_at : forall v k, dget Nat.eqb v (by_vertex r) = Some k -> In v (vertices g) /\ exists l, dget Nat.eqb k (by_rank r) = Some l /\ In v l;
  pd_lists : forall k l, dget Nat.eqb k (by_rank r) = Some l -> NoDup l /\ forall v, In v l -> dget Nat.eqb v (by_vertex r) = Some k;
  pd_pinned : forall v, pinned g rk v -> dget Nat.eqb v (by_vertex r) = Some (rk v);
  pd_inner : forall v k, inner v = true -> dget Nat.eqb v (by_vertex r) = Some k -> 1 <= k /\ S k < m
}.

Lemma placed_key : forall g rk m r k, placed g rk m r -> (k < m <-> exists l, dget Nat.eqb k (by_rank r) = Some l).
Proof.
  intros g rk m r k P. split.
  - intros L. apply (dget_Some_key _ nat_eqb_ok). rewrite (pd_keys _ _ _ _ P). apply in_seq. lia.
  - intros [l D]. apply (dget_In _ nat_eqb_ok) in D. apply (in_map fst) in D. rewrite (pd_keys _ _ _ _ P) in D. apply in_seq in D. cbn [fst] in D. lia.
Qed.

Lemma list_remove_ok : forall x l, In x l -> exists l', list_remove x l = Ok l'.
Proof.
  induction l as [|y l IH]; intros H; [contradiction|]. cbn [list_remove]. destruct (x =? y) eqn:E; [eauto|].
  destruct H as [->|H]; [rewrite Nat.eqb_refl in E; discriminate|]. destruct (IH H) as [l' ->]. cbn [bind]. eauto.
Qed.
Lemma list_remove_spec : forall x l l', NoDup l -> list_remove x l = Ok l' -> NoDup l' /\ ~ In x l' /\ forall y, y <> x -> (In y l' <-> In y l).
Proof.
  induction l as [|y l IH]; intros l' N H; [discriminate|]. cbn [list_remove] in H. inversion N as [|? ? N1 N2]; subst.
  destruct (x =? y) eqn:E.
  - apply Nat.eqb_eq in E. subst y. injection H as <-. split; [assumption|]. split; [assumption|]. intros y Hy. cbn [In]. intuition congruence.
  - apply Nat.eqb_neq in E. apply bind_ok in H as [r [H1 H]]. injection H as <-. destruct (IH r N2 H1) as [A [B C]]. split; [|split].
    + constructor; [|assumption]. intros Q. apply N1. apply C; [congruence|assumption].
    + intros [Q|Q]; congruence || auto.
    + intros z Hz. cbn [In]. rewrite (C z Hz). tauto.
Qed.

Section Near.
  Variables (g : graph) (W : list wpath) (rk : vid -> nat) (m : nat) (l0 : list vid).
  Hypothesis GI : graph_of g W.
  Hypothesis NW : W <> [].
  Hypothesis RO : rank_ok g rk m l0.

  Lemma pinned_In : forall v, pinned g rk v -> In v (vertices g).
  Proof. intros v H. inversion H as [|u w H1 H2 H3]; subst; [apply (end_In g W GI)|]. apply (graph_edge_verts g W v w GI H2). Qed.

  Lemma pinned_rank : forall k, k < m -> exists v, pinned g rk v /\ rk v = k.
  Proof.
    assert (G : forall j, j < m -> exists v, pinned g rk v /\ rk v = m - 1 - j).
    { induction j as [|j IH]; intros L.
      - exists v_end. split; [constructor|]. pose proof (rank_end_max g W rk m l0 GI RO NW). lia.
      - destruct IH as [v [P E]]; [lia|]. pose proof (pinned_In v P) as Hv. pose proof (ro_eq _ _ _ _ RO v Hv) as Q.
        destruct (rank_of_pos g rk v (m - 1 - S j)) as [u [U1 U2]]; [lia|]. exists u. split; [|assumption].
        apply pin_step with v; auto. lia. }
    intros k L. destruct (G (m - 1 - k)) as [v [P E]]; [lia|]. exists v. split; [assumption|lia].
  Qed.

  Lemma base_placed : forall rk' m' l', rank_ok g rk' m' l' -> placed g rk m (ranking_for rk' m' l').
  Proof.
    intros rk' m' l' RO'. destruct (rank_unique g W rk' m' l' rk m l0 GI NW RO' RO) as [E [-> _]].
    assert (ND : NoDup l') by (apply Permutation_NoDup with (vertices g); [symmetry; apply (ro_perm _ _ _ _ RO')|apply (gi_verts _ _ GI)]).
    assert (IL : forall v, In v l' <-> In v (vertices g)).
    { intros v. split; apply Permutation_in; [|symmetry]; apply (ro_perm _ _ _ _ RO'). }
    constructor.
    - intros v Hv. exists (rk' v). apply (by_vertex_get _ _ _ _ _ RO' Hv).
    - cbn [ranking_for by_rank]. rewrite map_map. cbn [fst]. apply map_id.
    - intros v k D. destruct (by_vertex_inv _ _ _ _ _ _ RO' D) as [Hv ->]. split; [assumption|].
      exists (filter (fun u => rk' u =? rk' v) l'). cbn [ranking_for by_rank]. split.
      + rewrite (dget_map_seq (fun r => filter (fun v => rk' v =? r) l')). pose proof (ro_lt _ _ _ _ RO' v Hv).
        replace ((0 <=? rk' v) && (rk' v <? 0 + m)) with true by (symmetry; apply andb_true_iff; split; [apply Nat.leb_le; lia|apply Nat.ltb_lt; lia]). reflexivity.
      + apply filter_In. rewrite Nat.eqb_refl, IL. auto.
    - intros k l D. cbn [ranking_for by_rank] in D. rewrite (dget_map_seq (fun r => filter (fun v => rk' v =? r) l')) in D.
      destruct ((0 <=? k) && (k <? 0 + m)); [|discriminate]. injection D as <-. split; [apply NoDup_filter; assumption|].
      intros v Hv. apply filter_In in Hv as [H1 H2]. apply Nat.eqb_eq in H2. subst k. apply (by_vertex_get _ _ _ _ _ RO'). apply IL. assumption.
    - intros v P. pose proof (pinned_In v P) as Hv. rewrite (by_vertex_get _ _ _ _ _ RO' Hv). f_equal. apply E. assumption.
    - intros v k Iv D. destruct (by_vertex_inv _ _ _ _ _ _ RO' D) as [Hv ->]. rewrite (E v Hv). apply inner_iff in Iv as [I1 I2].
      pose proof (rank_end_max g W rk m l0 GI RO NW). pose proof (rank_le_end g W rk m l0 GI RO NW v Hv I2).
      destruct (Nat.eq_dec (rk v) 0) as [Z|Z]; [|lia]. apply (rank_zero g W rk m l0 GI RO NW) in Z; auto. contradiction.
  Qed.

  Lemma near_step_placed : forall r u v q, placed g rk m r -> In u (vertices g) -> inner u = true -> In v (vertices g) -> ~ pinned g rk v ->
    exists r', near_step r ((u, v), q) = Ok r' /\ placed g rk m r'.
  Proof.
    intros r u v q P Hu Iu Hv NP. destruct (pd_verts _ _ _ _ P u Hu) as [ur Du]. destruct (pd_verts _ _ _ _ P v Hv) as [vr Dv].
    destruct (pd_at _ _ _ _ P v vr Dv) as [_ [ol [Dl Iv]]]. destruct (list_remove_ok v ol Iv) as [ol' R].
    destruct (pd_at _ _ _ _ P u ur Du) as [_ [ul [Dul _]]].
    destruct (pd_lists _ _ _ _ P vr ol Dl) as [ND OL]. destruct (list_remove_spec v ol ol' ND R) as [R1 [R2 R3]].
    destruct (pd_lists _ _ _ _ P ur ul Dul) as [NDu UL].
    set (nl := if vr =? ur then ol' else ul).
    assert (E : near_step r ((u, v), q) = Ok {| by_vertex := dset Nat.eqb v ur (by_vertex r);
       by_rank := dset Nat.eqb ur (nl ++ [v]) (dset Nat.eqb vr ol' (by_rank r)) |}).
    { unfold near_step, dgetE. rewrite Du. cbn [bind]. rewrite Dv. cbn [bind]. rewrite Dl. cbn [bind]. rewrite R. cbn [bind].
      rewrite (dget_set _ nat_eqb_ok). unfold nl. destruct (vr =? ur); [|rewrite Dul]; reflexivity. }
    eexists. split; [exact E|]. clear E.
    assert (BR : forall k, dget Nat.eqb k (dset Nat.eqb ur (nl ++ [v]) (dset Nat.eqb vr ol' (by_rank r))) =
      if ur =? k then Some (nl ++ [v]) else if vr =? k then Some ol' else dget Nat.eqb k (by_rank r)).
    { intros k. rewrite !(dget_set _ nat_eqb_ok). reflexivity. }
    assert (NL : NoDup nl /\ ~ In v nl /\ forall x, In x nl -> x <> v -> dget Nat.eqb x (by_vertex r) = Some ur).
    { unfold nl. destruct (vr =? ur) eqn:Q.
      - apply Nat.eqb_eq in Q. subst ur. split; [assumption|]. split; [assumption|]. intros x Hx Nx. apply OL. apply R3; assumption.
      - apply Nat.eqb_neq in Q. split; [assumption|]. split; [|auto]. intros C. apply UL in C. congruence. }
    destruct NL as [NL1 [NL2 NL3]].
    constructor; cbn [by_vertex by_rank].
    - intros x Hx. rewrite (dget_set _ nat_eqb_ok). destruct (v =? x); [eauto|]. apply (pd_verts _ _ _ _ P x Hx).
    - assert (KV : In vr (map fst (by_rank r))) by (apply (dget_In _ nat_eqb_ok) in Dl; apply (in_map fst) in Dl; exact Dl).
      assert (KU : In ur (map fst (by_rank r))) by (apply (dget_In _ nat_eqb_ok) in Dul; apply (in_map fst) in Dul; exact Dul).
      rewrite (dset_keys_old _ nat_eqb_ok) by (rewrite (dset_keys_old _ nat_eqb_ok) by exact KV; exact KU).
      rewrite (dset_keys_old _ nat_eqb_ok) by exact KV. apply (pd_keys _ _ _ _ P).
    - intros x k D. rewrite (dget_set _ nat_eqb_ok) in D. destruct (v =? x) eqn:Q.
      + apply Nat.eqb_eq in Q. subst x. injection D as <-. split; [assumption|]. rewrite BR, Nat.eqb_refl. eexists. split; [reflexivity|].
        apply in_or_app. right. left. reflexivity.
      + apply Nat.eqb_neq in Q. destruct (pd_at _ _ _ _ P x k D) as [Hx [lx [Dx Ix]]]. split; [assumption|]. rewrite BR.
        destruct (ur =? k) eqn:Q1.
        * apply Nat.eqb_eq in Q1. subst k. eexists. split; [reflexivity|]. apply in_or_app. left. unfold nl. destruct (vr =? ur) eqn:Q2.
          -- apply Nat.eqb_eq in Q2. subst ur. apply R3; [congruence|]. congruence.
          -- congruence.
        * destruct (vr =? k) eqn:Q2; [|eauto]. apply Nat.eqb_eq in Q2. subst k. eexists. split; [reflexivity|]. apply R3; [congruence|congruence].
    - intros k l D. rewrite BR in D. destruct (ur =? k) eqn:Q1.
      + apply Nat.eqb_eq in Q1. subst k. injection D as <-. split.
        * apply NoDup_app_iff. split; [assumption|]. split; [repeat constructor; intros []|]. intros x H1 [H2|[]]. subst x. contradiction.
        * intros x Hx. rewrite (dget_set _ nat_eqb_ok). destruct (v =? x) eqn:Q; [reflexivity|]. apply Nat.eqb_neq in Q.
          apply in_app_or in Hx as [Hx|[Hx|[]]]; [apply NL3; congruence|congruence].
      + apply Nat.eqb_neq in Q1. destruct (vr =? k) eqn:Q2.
        * apply Nat.eqb_eq in Q2. subst k. injection D as <-. split; [assumption|]. intros x Hx. rewrite (dget_set _ nat_eqb_ok).
          destruct (v =? x) eqn:Q; [apply Nat.eqb_eq in Q; subst x; contradiction|]. apply Nat.eqb_neq in Q. apply OL. apply R3; congruence.
        * apply Nat.eqb_neq in Q2. destruct (pd_lists _ _ _ _ P k l D) as [N1 N2]. split; [assumption|]. intros x Hx. rewrite (dget_set _ nat_eqb_ok).
          destruct (v =? x) eqn:Q; [|apply N2; assumption]. apply Nat.eqb_eq in Q. subst x. apply N2 in Hx. congruence.
    - intros x Px. rewrite (dget_set _ nat_eqb_ok). destruct (v =? x) eqn:Q; [apply Nat.eqb_eq in Q; subst x; contradiction|]. apply (pd_pinned _ _ _ _ P x Px).
    - intros x k Ix D. rewrite (dget_set _ nat_eqb_ok) in D. destruct (v =? x); [injection D as <-; apply (pd_inner _ _ _ _ P u ur Iu Du)|apply (pd_inner _ _ _ _ P x k Ix D)].
  Qed.

  Variables (topo : graph -> res (list vid)) (ratio : str -> str -> Q).
  Hypothesis TO : topo_ok topo.

  (** The graph with near edges into vertices that are not pinned. *)
  Definition near_ok (g' : graph) : Prop := without_near g' = g /\
    forall u v q, In ((u, v), q) (g_near g') -> In u (vertices g) /\ inner u = true /\ In v (vertices g) /\ ~ pinned g rk v.

  Lemma near_ranking : forall g', near_ok g' -> exists r, ranking_of topo g' = Ok r /\ placed g rk m r.
  Proof.
    intros g' [E NE].
    destruct (TO g') as [l [T1 [T2 T3]]].
    { change (vertices g') with (vertices (without_near g')). rewrite E. apply (gi_verts _ _ GI). }
    { intros u v. change (edge g' u v) with (edge (without_near g') u v). change (vertices g') with (vertices (without_near g')). rewrite E. apply (graph_edge_verts g W u v GI). }
    { change (edge_pairs g') with (edge_pairs (without_near g')). rewrite E. apply (gi_edges_nodup _ _ GI). }
    { change (acyclic g') with (acyclic (without_near g')). rewrite E. apply (gi_acyclic _ _ GI). }
    change (vertices g') with (vertices (without_near g')) in T2. rewrite E in T2.
    assert (T3' : forall u v, edge g u v -> before u v l) by (rewrite <- E; exact T3).
    assert (ND : NoDup l) by (apply Permutation_NoDup with (vertices g); [symmetry; assumption | apply (gi_verts _ _ GI)]).
    destruct (rank_fold g l ND) as [rk' [m' [R1 [R2 [R3 R4]]]]]; [intros u v H _; apply T3'; assumption|].
    assert (IL : forall v, In v l <-> In v (vertices g)) by (intros v; split; apply Permutation_in; [assumption | symmetry; assumption]).
    assert (RO' : rank_ok g rk' m' l).
    { constructor; auto.
      - intros v H. apply R2. apply IL. assumption.
      - intros r H. destruct (R3 r H) as [v [V1 V2]]. exists v. rewrite <- IL. auto.
      - intros v H. apply R4. apply IL. assumption.
      - intros u v H. pose proof (rank_of_edge g rk' u v H). rewrite <- R4 in H0; [lia|].
        apply T3' in H. apply before_In in H as [_ H]. assumption. }
    assert (B : foldM (rank_step g') l {| by_vertex := []; by_rank := [] |} = Ok (ranking_for rk' m' l)).
    { rewrite <- R1. rewrite <- E. reflexivity. }
    unfold ranking_of. rewrite T1. cbn [bind]. rewrite B. cbn [bind].
    assert (F : forall L r, placed g rk m r -> exists r', foldM (fun r v => foldM near_step (in_near_edges g' v) r) L r = Ok r' /\ placed g rk m r').
    { induction L as [|v L IH]; intros r P; [exists r; auto|]. cbn [foldM].
      assert (F1 : forall es r, (forall e, In e es -> In e (g_near g')) -> placed g rk m r -> exists r', foldM near_step es r = Ok r' /\ placed g rk m r').
      { induction es as [|[[a b] q] es IHe]; intros r1 He P1; [exists r1; auto|]. cbn [foldM].
        destruct (NE a b q (He _ (or_introl eq_refl))) as [N1 [N0 [N2 N3]]].
        destruct (near_step_placed r1 a b q P1 N1 N0 N2 N3) as [r2 [S1 S2]]. rewrite S1. cbn [bind]. apply IHe; auto. intros e Hi. apply He. right. assumption. }
      destruct (F1 (in_near_edges g' v) r) as [r1 [S1 S2]]; auto.
      { intros e He. unfold in_near_edges in He. apply filter_In in He as [He _]. assumption. }
      rewrite S1. cbn [bind]. apply IH. assumption. }
    apply F. apply base_placed. assumption.
  Qed.

  Lemma best_candidate_ok : forall g' src cands, vertices g' = vertices g -> In src (vertices g) -> incl cands (vertices g) -> cands <> [] ->
    exists w q, best_candidate ratio g' src cands = Ok (w, q) /\ In w cands.
  Proof.
    intros g' src cands EV Hs HC NC. unfold best_candidate.
    assert (GV : forall x, In x (vertices g) -> exists vx, get_vertex g' x = Ok vx).
    { intros x Hx. rewrite <- EV in Hx. unfold get_vertex, dgetE. destruct (dget_Some_key _ nat_eqb_ok x (g_verts g') Hx) as [vx ->]. eauto. }
    destruct (GV src Hs) as [sx ->]. cbn [bind].
    match goal with |- context [foldM ?f cands None] => set (F := f) end.
    assert (G : forall l b, incl l (vertices g) -> exists o, foldM F l b = Ok o /\
      (forall w q, o = Some (w, q) -> In w l \/ b = Some (w, q)) /\ (o = None -> l = [] /\ b = None)).
    { induction l as [|x l IH]; intros b Hl; [exists b; cbn [foldM]; repeat split; auto|]. cbn [foldM].
      destruct (GV x (Hl x (or_introl eq_refl))) as [cx Ec].
      assert (EF : exists b', F b x = Ok b' /\ (b' = b \/ exists q, b' = Some (x, q)) /\ b' <> None).
      { unfold F. rewrite Ec. cbn [bind]. destruct b as [[c1 b1]|].
        - destruct (Qle_bool _ b1); eexists; (split; [reflexivity|]); (split; [|discriminate]); [left; reflexivity|right; eauto].
        - eexists. split; [reflexivity|]. split; [right; eauto|discriminate]. }
      destruct EF as [b' [-> [E1 E2]]]. cbn [bind]. destruct (IH b') as [o [O1 [O2 O3]]]; [intros y Hy; apply Hl; right; assumption|].
      exists o. split; [assumption|]. split.
      - intros w q Eo. destruct (O2 w q Eo) as [H|H]; [left; right; assumption|]. destruct E1 as [E1|[q1 E1]]; [right; congruence|].
        left. left. congruence.
      - intros C. apply O3 in C as [_ C]. congruence. }
    destruct (G cands None HC) as [o [-> [O2 O3]]]. cbn [bind]. destruct o as [[w q]|].
    - exists w, q. split; [reflexivity|]. destruct (O2 w q eq_refl) as [H|H]; [assumption|discriminate].
    - exfalso. apply NC. apply O3. reflexivity.
  Qed.

  Lemma near_edge_total : forall g' r src v lb, near_ok g' -> placed g rk m r -> edge g src v ->
    exists g2 r2, near_edge_step topo ratio (g', r) ((src, v), lb) = Ok (g2, r2) /\ near_ok g2 /\ placed g rk m r2 /\
      ((g2, r2) = (g', r) \/ exists w q kw ks kv, g2 = connect_near g' w src q /\ ranking_of topo g2 = Ok r2 /\ ~ pinned g rk src /\
         dget Nat.eqb w (by_vertex r) = Some kw /\ dget Nat.eqb src (by_vertex r) = Some ks /\ dget Nat.eqb v (by_vertex r) = Some kv /\
         ks <= kw < kv /\ w <> src /\ In w (vertices g)).
  Proof.
    intros g' r src v lb NO P He. destruct (graph_edge_verts g W src v GI He) as [Hs Hv].
    destruct (pd_verts _ _ _ _ P v Hv) as [rv Dv]. destruct (pd_verts _ _ _ _ P src Hs) as [rs Ds].
    destruct NO as [E NE]. assert (NO : near_ok g') by (split; assumption).
    assert (EV : vertices g' = vertices g) by (rewrite <- E; reflexivity).
    unfold near_edge_step, dgetE at 1. rewrite Dv. cbn [bind]. unfold dgetE at 1. rewrite Ds. cbn [bind].
    destruct (Z.ltb 1 (Z.of_nat rv - Z.of_nat rs)) eqn:Gap; [|eauto 8].
    apply Z.ltb_lt in Gap.
    set (D := fun e : vid * vid * str => (a <- dgetE Nat.eqb (snd (fst e)) (by_vertex r) ;; b <- dgetE Nat.eqb (fst (fst e)) (by_vertex r) ;; Ok (Z.of_nat a - Z.of_nat b)%Z)).
    assert (OE : forall e, In e (out_edges g' src) -> exists x, fst (fst e) = src /\ snd (fst e) = x /\ edge g src x).
    { intros [[a b] lb'] Hi. unfold out_edges in Hi. apply filter_In in Hi as [H1 H2]. cbn [fst] in H2. apply Nat.eqb_eq in H2. subst a.
      exists b. split; [reflexivity|]. split; [reflexivity|]. rewrite <- E. apply (in_map fst) in H1. exact H1. }
    assert (DS : exists ds, mapM D (out_edges g' src) = Ok ds).
    { apply mapM_total. intros e Hi. destruct (OE e Hi) as [x [E1 [E2 E3]]]. destruct (graph_edge_verts g W src x GI E3) as [_ Hx].
      destruct (pd_verts _ _ _ _ P x Hx) as [kx Dx]. unfold D, dgetE. rewrite E2, Dx. cbn [bind]. rewrite E1, Ds. cbn [bind]. eauto. }
    destruct DS as [ds DS]. rewrite DS. cbn [bind]. destruct (existsb (Z.eqb 1) ds) eqn:One; [eauto 8|].
    (* the source is not pinned *)
    assert (NP : ~ pinned g rk src).
    { intros Ps. assert (X : exists x, pinned g rk x /\ edge g src x /\ rk x = S (rk src)).
      { inversion Ps as [|u x P1 P2 P3]; subst; [|eauto]. exfalso.
        pose proof (ro_edge _ _ _ _ RO _ _ He) as Q. destruct (Nat.eq_dec v v_end) as [->|N]; [lia|]. pose proof (rank_le_end g W rk m l0 GI RO NW v Hv N). lia. }
      destruct X as [x [X1 [X2 X3]]]. assert (I : exists lb', In ((src, x), lb') (out_edges g' src)).
      { change (edge g src x) with (In (src, x) (map fst (g_edges g))) in X2. rewrite <- E in X2. apply in_map_iff in X2 as [[[a b] lb'] [Q1 Q2]]. cbn [fst] in Q1.
        injection Q1 as -> ->. exists lb'. apply filter_In. split; [exact Q2|]. apply Nat.eqb_refl. }
      destruct I as [lb' I]. assert (F : In 1%Z ds).
      { destruct (In_nth_error _ _ I) as [i Hi]. pose proof (mapM_Forall2 _ _ _ DS) as F2.
        assert (G2 : forall L1 L2, Forall2 (fun e z => D e = Ok z) L1 L2 -> In ((src, x), lb') L1 -> In 1%Z L2).
        { induction 1 as [|e z L1 L2 H1 H2 IH]; intros Hin; [contradiction|]. destruct Hin as [->|Hin]; [|right; apply IH; assumption].
          left. unfold D, dgetE in H1. cbn [fst snd] in H1. rewrite (pd_pinned _ _ _ _ P x X1) in H1. cbn [bind] in H1. rewrite (pd_pinned _ _ _ _ P src Ps) in H1.
          cbn [bind] in H1. injection H1 as <-. lia. }
        apply (G2 _ _ F2 I). }
      assert (C : existsb (Z.eqb 1) ds = true) by (apply existsb_exists; exists 1%Z; auto). congruence. }
    assert (Lv : rv < m) by (apply (placed_key g rk m r rv P); destruct (pd_at _ _ _ _ P v rv Dv) as [_ [l [Q _]]]; eauto).
    assert (LS : exists ls, mapM (fun k => dgetE Nat.eqb k (by_rank r)) (seq rs (rv - rs)) = Ok ls).
    { apply mapM_total. intros k Hk. apply in_seq in Hk. destruct (proj1 (placed_key g rk m r k P)) as [l Q]; [lia|]. unfold dgetE. rewrite Q. eauto. }
    destruct LS as [ls LS]. rewrite LS. cbn [bind].
    assert (LF : Forall2 (fun k l => dget Nat.eqb k (by_rank r) = Some l) (seq rs (rv - rs)) ls).
    { pose proof (mapM_Forall2 _ _ _ LS) as F. clear - F. induction F as [|k l L1 L2 H F IH]; constructor; auto. apply (dgetE_ok _) in H. assumption. }
    set (cands := filter (fun c => negb (c =? src)) (concat ls)).
    assert (HC : incl cands (vertices g)).
    { intros x Hx. apply filter_In in Hx as [Hx _]. apply in_concat in Hx as [l [Hl Hx]]. 
      assert (exists k, dget Nat.eqb k (by_rank r) = Some l) as [k Q].
      { clear - LF Hl. induction LF as [|k l' L1 L2 H F IH]; [contradiction|]. destruct Hl as [<-|Hl]; eauto. }
      destruct (pd_lists _ _ _ _ P k l Q) as [_ A]. destruct (pd_at _ _ _ _ P x k (A x Hx)) as [B _]. assumption. }
    assert (NC : cands <> []).
    { destruct (pinned_rank (rv - 1)) as [x [Px Rx]]; [lia|]. intros C. assert (I : In x cands); [|rewrite C in I; contradiction].
      apply filter_In. pose proof (pd_pinned _ _ _ _ P x Px) as Dx. split.
      - destruct (pd_at _ _ _ _ P x _ Dx) as [_ [l [Q1 Q2]]]. rewrite Rx in Q1. apply in_concat. exists l. split; [|assumption].
        assert (Ik : In (rv - 1) (seq rs (rv - rs))) by (apply in_seq; lia). clear - LF Ik Q1.
        induction LF as [|k l' L1 L2 H F IH]; [contradiction|]. destruct Ik as [->|Ik]; [left; congruence|right; auto].
      - apply negb_true_iff. apply Nat.eqb_neq. intros ->. contradiction. }
    destruct (best_candidate_ok g' src cands EV Hs HC NC) as [w [q [BC Iw]]]. rewrite BC. cbn [bind].
    assert (Is : inner src = true).
    { apply inner_iff. split; intros C; subst src; apply NP; [|apply pin_end].
      destruct (pinned_rank 0) as [x [X1 X2]]; [pose proof (rank_end_max g W rk m l0 GI RO NW); lia|].
      apply (rank_zero g W rk m l0 GI RO NW) in X2; [|apply pinned_In; assumption]. subst x. exact X1. }
    assert (IW : inner w = true).
    { apply filter_In in Iw as [Iw _]. apply in_concat in Iw as [l [Hl Iw]].
      assert (exists k, In k (seq rs (rv - rs)) /\ dget Nat.eqb k (by_rank r) = Some l) as [k [Ik Q]].
      { clear - LF Hl. induction LF as [|k l' L1 L2 H F IH]; [contradiction|]. destruct Hl as [<-|Hl]; [exists k; split; [left|]; auto|].
        destruct (IH Hl) as [k' [A B]]. exists k'. split; [right|]; auto. }
      apply in_seq in Ik. destruct (pd_lists _ _ _ _ P k l Q) as [_ A]. specialize (A w Iw). pose proof (pd_inner _ _ _ _ P src rs Is Ds) as B.
      apply inner_iff. split; intros C; subst w.
      - assert (PS : pinned g rk v_start).
        { destruct (pinned_rank 0) as [x [X1 X2]]; [lia|]. apply (rank_zero g W rk m l0 GI RO NW) in X2; [|apply pinned_In; assumption]. subst x. exact X1. }
        rewrite (pd_pinned _ _ _ _ P _ PS) in A. injection A as A. rewrite (rank_start g W rk m l0 GI RO) in A. lia.
      - rewrite (pd_pinned _ _ _ _ P _ (pin_end _ _)) in A. injection A as A. pose proof (rank_end_max g W rk m l0 GI RO NW). lia. }
    assert (NO2 : near_ok (connect_near g' w src q)).
    { split; [rewrite <- E; reflexivity|]. intros a b q' Hi. cbn [connect_near g_near] in Hi.
      assert (Hk : In (a, b) (map fst (dset edge_eqb (w, src) q (g_near g')))) by (apply (in_map fst) in Hi; exact Hi).
      apply (dset_In_key _ edge_eqb_ok) in Hk as [Hk|Hk].
      - injection Hk as -> ->. split; [apply HC; assumption|]. repeat split; assumption.
      - apply in_map_iff in Hk as [[[a' b'] q2] [Q1 Q2]]. cbn [fst] in Q1. injection Q1 as -> ->. apply (NE a b q2 Q2). }
    destruct (near_ranking _ NO2) as [r2 [R1 R2]]. rewrite R1. cbn [bind].
    exists (connect_near g' w src q), r2. split; [reflexivity|]. split; [assumption|]. split; [assumption|]. right.
    pose proof Iw as Iw'. apply filter_In in Iw as [Iw Nw]. apply negb_true_iff, Nat.eqb_neq in Nw. apply in_concat in Iw as [l [Hl Iw]].
    assert (exists k, In k (seq rs (rv - rs)) /\ dget Nat.eqb k (by_rank r) = Some l) as [k [Ik Q]].
    { clear - LF Hl. induction LF as [|k l' L1 L2 H F IH]; [contradiction|]. destruct Hl as [<-|Hl]; [exists k; split; [left|]; auto|].
      destruct (IH Hl) as [k' [A B]]. exists k'. split; [right|]; auto. }
    apply in_seq in Ik. destruct (pd_lists _ _ _ _ P k l Q) as [_ A]. specialize (A w Iw).
    exists w, q, k, rs, rv. repeat (split; [first [assumption|reflexivity|lia]|]). apply HC. assumption.
  Qed.

  Theorem near_match_total : exists g2 r2, perform_near_match topo ratio g (ranking_for rk m l0) = Ok (g2, r2) /\ near_ok g2 /\ placed g rk m r2.
  Proof.
    unfold perform_near_match. destruct (topo_near topo g W TO) as [l [T _]].
    { destruct g as [a b n d]. pose proof (gi_near _ _ GI) as N. cbn [g_near] in N. subst n. exact GI. }
    rewrite T. cbn [bind].
    assert (NO : near_ok g).
    { pose proof (gi_near _ _ GI) as N. split; [destruct g as [a b n d]; cbn in N |- *; subst n; reflexivity|]. rewrite N. intros u v q []. }
    assert (F : forall L g' r, near_ok g' -> placed g rk m r ->
      exists g2 r2, foldM (fun st v => foldM (near_edge_step topo ratio) (in_edges (fst st) v) st) L (g', r) = Ok (g2, r2) /\ near_ok g2 /\ placed g rk m r2).
    { induction L as [|v L IH]; intros g' r N P; [exists g', r; auto|]. cbn [foldM fst].
      assert (F1 : forall es g1 r1, (forall e, In e es -> edge g (fst (fst e)) (snd (fst e))) -> near_ok g1 -> placed g rk m r1 ->
        exists g2 r2, foldM (near_edge_step topo ratio) es (g1, r1) = Ok (g2, r2) /\ near_ok g2 /\ placed g rk m r2).
      { induction es as [|[[a b] lb] es IHe]; intros g1 r1 He N1 P1; [exists g1, r1; auto|]. cbn [foldM].
        destruct (near_edge_total g1 r1 a b lb N1 P1 (He _ (or_introl eq_refl))) as [g2 [r2 [S1 [S2 [S3 _]]]]]. rewrite S1. cbn [bind].
        apply IHe; auto. intros e Hi. apply He. right. assumption. }
      destruct (F1 (in_edges g' v) g' r) as [g2 [r2 [S1 [S2 S3]]]]; auto.
      { intros [[a b] lb] He. unfold in_edges in He. apply filter_In in He as [He _]. cbn [fst snd]. destruct N as [N _]. rewrite <- N.
        apply (in_map fst) in He. exact He. }
      rewrite S1. cbn [bind]. apply IH; assumption. }
    destruct (F (rev l) g (ranking_for rk m l0) NO (base_placed rk m l0 RO)) as [g2 [r2 [S1 [S2 S3]]]]. rewrite S1. cbn [bind].
    destruct (near_ranking g2 S2) as [r3 [R1 R2]]. rewrite R1. cbn [bind]. eauto.
  Qed.
End Near.

(** ** collate with near_match=True *)
Lemma filter_seq_inner : forall (A : nat * list vid -> bool) (B : list (nat * list vid)) m,
  map fst B = seq 0 m -> 2 <= m -> (forall k l, In (k, l) B -> A (k, l) = true <-> 1 <= k /\ S k < m) ->
  map fst (filter A B) = seq 1 (m - 2).
Proof.
  intros A B m E L H.
  assert (G : map fst (filter A B) = filter (fun k => (1 <=? k) && (S k <? m)) (map fst B)).
  { clear E. induction B as [|[k l] B IH]; [reflexivity|]. cbn [filter map fst].
    assert (X : A (k, l) = ((1 <=? k) && (S k <? m))).
    { apply eq_true_iff_eq. rewrite (H k l (or_introl eq_refl)), andb_true_iff, Nat.leb_le, Nat.ltb_lt. reflexivity. }
    rewrite X. destruct ((1 <=? k) && (S k <? m)); cbn [map fst]; rewrite IH; auto; intros; apply H; right; assumption. }
  rewrite G, E. clear G E H.
  assert (F1 : filter (fun k => (1 <=? k) && (S k <? m)) (seq 1 (m - 2)) = seq 1 (m - 2)).
  { assert (Q : forall (f : nat -> bool) l, (forall k, In k l -> f k = true) -> filter f l = l).
    { induction l as [|k l' IH]; intros Hl; [reflexivity|]. cbn [filter]. rewrite (Hl k (or_introl eq_refl)). f_equal. apply IH. intros. apply Hl. right. assumption. }
    apply Q. intros k Hk. apply in_seq in Hk. apply andb_true_iff. rewrite Nat.leb_le, Nat.ltb_lt. lia. }
  assert (S3 : seq 0 m = [0] ++ seq 1 (m - 2) ++ [m - 1]).
  { destruct m as [|[|n]]; [lia|lia|]. replace (S (S n) - 2) with n by lia. replace (S (S n) - 1) with (S n) by lia.
    change (seq 0 (S (S n))) with (0 :: seq 1 (S n)). rewrite (seq_S n 1). reflexivity. }
  rewrite S3, !filter_app, F1. cbn [filter Nat.leb andb app].
  replace (S (m - 1) <? m) with false by (symmetry; apply Nat.ltb_ge; lia). rewrite andb_false_r. apply app_nil_r.
Qed.

Lemma placed_ranks : forall g W rk m l0 r, graph_of g W -> W <> [] -> rank_ok g rk m l0 -> placed g rk m r ->
  map fst (filter (fun kv => existsb inner (snd kv)) (by_rank r)) = seq 1 (m - 2) /\ 2 <= m.
Proof.
  intros g W rk m l0 r GI NW RO P.
  pose proof (rank_end_max g W rk m l0 GI RO NW) as EM.
  assert (L2 : 2 <= m).
  { pose proof (rank_le_end g W rk m l0 GI RO NW v_start (start_In g W GI)) as Q. rewrite (rank_start g W rk m l0 GI RO) in Q.
    specialize (Q ltac:(discriminate)). lia. }
  split; [|assumption]. apply filter_seq_inner; [apply (pd_keys _ _ _ _ P)|assumption|].
  intros k l I. cbn [snd].
  assert (D : dget Nat.eqb k (by_rank r) = Some l).
  { apply (In_dget _ nat_eqb_ok); [|assumption]. rewrite (pd_keys _ _ _ _ P). apply seq_NoDup. }
  destruct (pd_lists _ _ _ _ P k l D) as [_ B]. split.
  - intros X. apply existsb_exists in X as [v [V1 V2]]. apply (pd_inner _ _ _ _ P v k V2). apply B. assumption.
  - intros [K1 K2]. destruct (pinned_rank g W rk m l0 GI NW RO k) as [v [V1 V2]]; [lia|]. apply existsb_exists. exists v. split.
    + pose proof (pd_pinned _ _ _ _ P v V1) as Q. destruct (pd_at _ _ _ _ P v _ Q) as [_ [l' [Q1 Q2]]]. congruence.
    + apply inner_iff. split; intros C; subst v; [rewrite (rank_start g W rk m l0 GI RO) in V2; lia|lia].
Qed.

Section NearCollate.
  Variables (cc : cclass) (topo : graph -> res (list vid)) (ratio : str -> str -> Q).
  Hypothesis TO : topo_ok topo.

  (** Near matching changes nothing but the ranks of vertices off the longest paths. *)
  Theorem near_spec : forall c o g0 r0, good_sigla c -> o_segmentation o = false ->
    collate_graph cc topo ratio c (set_near o false) = Ok (g0, r0) ->
    exists g r W rk m l, collate_graph cc topo ratio c (set_near o true) = Ok (g, r) /\ without_near g = g0 /\
      Forall2 carries c W /\ graph_of g0 W /\ W <> [] /\ rank_ok g0 rk m l /\ r0 = ranking_for rk m l /\ placed g0 rk m r.
  Proof.
    intros c o g0 r0 [ND NG] Hs H. unfold collate_graph in *. cbn [set_near o_astar o_filter o_transp o_near o_segmentation] in *.
    apply bind_ok in H as [[ti g1] [A H]]. rewrite A. cbn [bind]. apply bind_ok in H as [r1 [R H]]. rewrite R. cbn [bind] in *.
    rewrite Hs in *. injection H as -> ->.
    destruct (o_astar o); [discriminate|].
    destruct (aligner_spec _ _ _ _ _ _ TO ND NG A) as [_ [_ [st' [W0 [E [AL [NW CA]]]]]]].
    pose proof (al_graph _ _ _ _ _ AL) as GI. rewrite E in GI.
    destruct (ranking_spec topo g0 W0 TO GI) as [rk [m [l [_ [R1 R2]]]]]. rewrite R1 in R. injection R as <-.
    destruct (near_match_total g0 W0 rk m l GI NW R2 topo ratio TO) as [g2 [r2 [X1 [[X2 _] X3]]]]. rewrite X1. cbn [bind].
    exists g2, r2, W0, rk, m, l. do 7 (split; [first [assumption|reflexivity]|]). assumption.
  Qed.

  (** The same number of columns, for any similarity. *)
  Theorem near_columns : forall c o t0, good_sigla c -> o_segmentation o = false -> o_output o = lit "table" ->
    collate cc topo ratio c (set_near o false) = Ok (OTable t0) ->
    exists t, collate cc topo ratio c (set_near o true) = Ok (OTable t) /\ length (t_columns t) = length (t_columns t0).
  Proof.
    intros c o t0 G Hs Ho H. destruct (collate_table_inv cc topo ratio c (set_near o false) t0 H) as [g0 [r0 [H1 H2]]].
    destruct (near_spec c o g0 r0 G Hs H1) as [g [r [W [rk [m [l [N1 [N2 [N3 [N4 [N5 [N6 [N7 N8]]]]]]]]]]]]].
    destruct G as [ND NG].
    assert (RI : forall r', placed g0 rk m r' -> ranks_in (vertices g0) r').
    { intros r' P k vs I v Hv. assert (D : dget Nat.eqb k (by_rank r') = Some vs).
      { apply (In_dget _ nat_eqb_ok); [|assumption]. rewrite (pd_keys _ _ _ _ P). apply seq_NoDup. }
      destruct (pd_lists _ _ _ _ P k vs D) as [_ B]. destruct (pd_at _ _ _ _ P v k (B v Hv)) as [Q _]. exact Q. }
    pose proof (base_placed g0 W rk m l N4 N5 N6 rk m l N6) as P0. subst r0 g0.
    rewrite (table_weak (without_near g) W N4 _ _ (RI _ P0)) in H2. injection H2 as <-.
    exists (wtable W (map w_sigil c) r). split.
    - unfold collate. rewrite N1. cbn [bind]. unfold render. cbn [set_near o_output]. rewrite Ho. cbn [str_eqb lit].
      assert (T : construct_table (map w_sigil c) g r = Ok (wtable W (map w_sigil c) r)).
      { apply (table_weak g W N4 _ _ (RI _ N8)). }
      rewrite T. cbn [bind]. reflexivity.
    - cbn [t_columns wtable]. rewrite !map_length.
      destruct (placed_ranks _ W rk m l r N4 N5 N6 N8) as [Q1 _]. destruct (placed_ranks _ W rk m l _ N4 N5 N6 P0) as [Q2 _].
      transitivity (length (seq 1 (m - 2))); [rewrite <- Q1|rewrite <- Q2]; rewrite map_length; reflexivity.
  Qed.
End NearCollate.

(** ** collate succeeds, near matching included *)
Section Total.
  Variables (cc : cclass) (topo : graph -> res (list vid)) (ratio : str -> str -> Q).
  Hypothesis TO : topo_ok topo.

  Theorem graph_total_all : forall c o, c <> [] -> good_sigla c -> no_empty_witness c -> ~ marker_clash (o_filter o) c ->
    o_astar o = false -> o_transp o = false -> (o_near o = true -> o_segmentation o = false) ->
    exists g r, collate_graph cc topo ratio c o = Ok (g, r).
  Proof.
    intros c o N G NE NM O1 O2 O3. pose proof G as [ND NG]. destruct (o_near o) eqn:Hn.
    - destruct (collate_graph_total cc topo ratio TO c (set_near o false) N ND NG NE NM O1 O2 eq_refl) as [g [r E]].
      destruct (near_spec cc topo ratio TO c o g r G (O3 eq_refl) E) as [g2 [r2 [_ [_ [_ [_ [X _]]]]]]].
      exists g2, r2. rewrite <- X. unfold collate_graph. cbn [set_near o_astar o_filter o_transp o_near o_segmentation]. rewrite Hn. reflexivity.
    - apply (collate_graph_total cc topo ratio TO c o N ND NG NE NM O1 O2 Hn).
  Qed.

  Theorem succeeds_all : forall c o, c <> [] -> good_sigla c -> no_empty_witness c -> ~ marker_clash (o_filter o) c ->
    In (o_output o) outputs -> (In (o_output o) outputs_with_text -> has_texts c) ->
    o_astar o = false -> o_transp o = false -> (o_near o = true -> o_segmentation o = false) -> exists x, collate cc topo ratio c o = Ok x.
  Proof.
    intros c o N G NE NM IO HT O1 O2 O3. pose proof G as [ND NG].
    destruct (graph_total_all c o N G NE NM O1 O2 O3) as [g [r E]].
    destruct (table_exists cc topo ratio TO c o g r ND NG E) as [W HTab].
    assert (X : exists x, render cc c o g r = Ok x); [|destruct X as [x X]].
    - apply (render_total cc c o g r (wtable W (map w_sigil c) r) IO); [|exact HTab]. intros I.
      apply (table_texts cc topo ratio TO c (set_output o (lit "table"))); auto. apply (collate_as_table cc topo ratio c o g r _ E HTab).
    - exists x. unfold collate. rewrite E. exact X.
  Qed.

  (** Success is decided by the marker strings and the two options that exclude each other. *)
  Theorem succeeds_iff : forall c o, c <> [] -> good_sigla c -> no_empty_witness c ->
    In (o_output o) outputs -> (In (o_output o) outputs_with_text -> has_texts c) -> o_astar o = false -> o_transp o = false ->
    (exists x, collate cc topo ratio c o = Ok x) <-> ~ marker_clash (o_filter o) c /\ (o_near o = true -> o_segmentation o = false).
  Proof.
    intros c o N G NE IO HT O1 O2. split.
    - intros [x H]. pose proof G as [ND NG]. unfold collate in H. apply bind_ok in H as [[g r] [H _]]. split.
      + intros C. apply (clash_fails cc topo ratio TO c o (g, r) ND NG C H).
      + intros Hn. destruct (o_segmentation o) eqn:Hs; [|reflexivity]. exfalso. unfold collate_graph in H. apply bind_ok in H as [[ti g1] [_ H]].
        apply bind_ok in H as [r1 [_ H]]. rewrite Hn, Hs in H. discriminate.
    - intros [H1 H2]. apply succeeds_all; auto.
  Qed.
End Total.
