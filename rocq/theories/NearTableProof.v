(** The table of two witnesses with near matching (C105). *)
From Verif Require Import Py TokenModel SuffixModel IndexModel GraphModel AlignModel TableModel NearModel ExportModel
  CollateModel Lib GraphSpec GraphProof MergeProof RankProof AlignerProof TableSpec TableProof AlignProof CollateProof CollateSpec ResultProof
  StageProof OutputProof NearProof NearSpec NearBest NearTwoProof CommonProof DrawProof PairSpec PairProof NearTableSpec.
From Coq Require Import Permutation Relations Sorted QArith.
Open Scope list_scope.
Open Scope nat_scope.

(** ** The first greatest *)
Lemma best_spec : forall f lo hi, lo < hi -> lo <= best f lo hi < hi /\
  (forall d, lo <= d < best f lo hi -> (f d < f (best f lo hi))%Q) /\ (forall d, lo <= d < hi -> (f d <= f (best f lo hi))%Q).
Proof.
  intros f lo hi L. unfold best.
  assert (G : forall n b mid, lo <= b < mid -> (forall d, lo <= d < b -> (f d < f b)%Q) -> (forall d, lo <= d < mid -> (f d <= f b)%Q) ->
    let b' := fold_left (fun b c => if Qle_bool (f c) (f b) then b else c) (seq mid n) b in
    lo <= b' < mid + n /\ (forall d, lo <= d < b' -> (f d < f b')%Q) /\ (forall d, lo <= d < mid + n -> (f d <= f b')%Q)).
  { induction n as [|n IH]; intros b mid B F1 F2; cbn [seq fold_left].
    - rewrite Nat.add_0_r. auto.
    - replace (mid + S n) with (S mid + n) by lia. destruct (Qle_bool (f mid) (f b)) eqn:E.
      + apply Qle_bool_iff in E. apply IH; [lia|assumption|]. intros d D. destruct (Nat.eq_dec d mid) as [->|N]; [assumption|apply F2; lia].
      + assert (Q : (f b < f mid)%Q) by (apply Qnot_le_lt; intros C; apply Qle_bool_iff in C; congruence).
        apply IH; [lia| |].
        * intros d D. apply Qle_lt_trans with (f b); [apply F2; lia|assumption].
        * intros d D. destruct (Nat.eq_dec d mid) as [->|N]; [apply Qle_refl|]. apply Qle_trans with (f b); [apply F2; lia|apply Qlt_le_weak; assumption]. }
  destruct (G (hi - S lo) lo (S lo)) as [A [B C]]; [lia|intros; lia|intros d D; assert (d = lo) by lia; subst; apply Qle_refl|].
  replace (S lo + (hi - S lo)) with hi in * by lia. auto.
Qed.

Lemma best_unique : forall f lo hi c, lo <= c < hi -> (forall d, lo <= d < c -> (f d < f c)%Q) -> (forall d, lo <= d < hi -> (f d <= f c)%Q) ->
  best f lo hi = c.
Proof.
  intros f lo hi c L F1 F2. destruct (best_spec f lo hi) as [A [B C]]; [lia|]. set (b := best f lo hi) in *.
  destruct (lt_eq_lt_dec b c) as [[X|X]|X]; [|assumption|]; exfalso.
  - apply (Qlt_not_le _ _ (F1 b ltac:(lia))). apply C. lia.
  - apply (Qlt_not_le _ _ (B c ltac:(lia))). apply F2. lia.
Qed.

Lemma standing_length : forall like p hi, length (standing like p hi) = p.
Proof. induction p as [|p IH]; intros hi; [reflexivity|]. cbn [standing]. rewrite app_length, IH. cbn [length]. lia. Qed.

Lemma standing_even : forall like p, standing like p p = seq 0 p.
Proof.
  intros like. induction p as [|p IH]; [reflexivity|]. rewrite seq_S. cbn [standing]. unfold best. rewrite Nat.sub_diag. cbn [seq fold_left].
  rewrite IH. reflexivity.
Qed.

Lemma in_column_spec : forall cs c k x, in_column c cs k = Some x -> k <= x /\ nth_error cs (x - k) = Some c.
Proof.
  induction cs as [|d cs IH]; intros c k x H; [discriminate|]. cbn [in_column] in H. destruct (c =? d) eqn:E.
  - injection H as <-. apply Nat.eqb_eq in E. subst. rewrite Nat.sub_diag. auto.
  - apply IH in H as [A B]. split; [lia|]. replace (x - k) with (S (x - S k)) by lia. assumption.
Qed.

Lemma in_column_at : forall cs c k i, NoDup cs -> nth_error cs i = Some c -> in_column c cs k = Some (k + i).
Proof.
  induction cs as [|d cs IH]; intros c k i N H; [destruct i; discriminate|]. inversion N as [|? ? N1 N2]; subst. cbn [in_column]. destruct i as [|i].
  - injection H as ->. rewrite Nat.eqb_refl, Nat.add_0_r. reflexivity.
  - cbn [nth_error] in H. destruct (c =? d) eqn:E; [apply Nat.eqb_eq in E; subst; exfalso; apply N1; apply nth_error_In in H; assumption|].
    rewrite (IH c (S k) i N2 H). f_equal. lia.
Qed.

(** ** Where the vertices move *)
Lemma in_near_other : forall (l : list (vid * vid * Q)) w s q x, x <> s ->
  filter (fun e => snd (fst e) =? x) (dset edge_eqb (w, s) q l) = filter (fun e => snd (fst e) =? x) l.
Proof.
  intros l w s q x N. induction l as [|[[u v] q'] l IH]; cbn [dset].
  - cbn [filter fst snd]. destruct (s =? x) eqn:E; [apply Nat.eqb_eq in E; congruence|reflexivity].
  - destruct (edge_eqb (w, s) (u, v)) eqn:E.
    + apply edge_eqb_ok in E. injection E as -> ->. cbn [filter fst snd]. destruct (v =? x) eqn:E; [apply Nat.eqb_eq in E; congruence|reflexivity].
    + cbn [filter fst snd]. rewrite IH. reflexivity.
Qed.
Lemma in_near_fresh : forall (l : list (vid * vid * Q)) w s q, filter (fun e => snd (fst e) =? s) l = [] ->
  filter (fun e => snd (fst e) =? s) (dset edge_eqb (w, s) q l) = [((w, s), q)].
Proof.
  intros l w s q. induction l as [|[[u v] q'] l IH]; intros H; cbn [dset].
  - cbn [filter fst snd]. rewrite Nat.eqb_refl. reflexivity.
  - cbn [filter fst snd] in H. destruct (v =? s) eqn:E; [discriminate|]. destruct (edge_eqb (w, s) (u, v)) eqn:E2.
    + apply edge_eqb_ok in E2. injection E2 as -> ->. rewrite Nat.eqb_refl in E. discriminate.
    + cbn [filter fst snd]. rewrite E. apply IH. assumption.
Qed.

Definition alike (ratio : str -> str -> Q) (g : graph) (u v : vid) : Q := ratio (as_compared (label_of g u)) (as_compared (label_of g v)).

Lemma alike_similarity : forall ratio g g' u v, without_near g' = g -> In u (vertices g) -> In v (vertices g) -> similarity ratio g' u v (alike ratio g u v).
Proof.
  intros ratio g g' u v E Hu Hv. apply similarity_iff. unfold get_vertex, dgetE, alike, label_of.
  assert (EV : g_verts g' = g_verts g) by (rewrite <- E; reflexivity). rewrite EV.
  destruct (dget_Some_key _ nat_eqb_ok u (g_verts g) Hu) as [ux ->]. destruct (dget_Some_key _ nat_eqb_ok v (g_verts g) Hv) as [vx ->].
  exists ux, vx. split; [reflexivity|]. split; [reflexivity|]. unfold vertex_str, as_compared. destruct (v_label ux), (v_label vx); reflexivity.
Qed.

Lemma sorted_concat : forall (R : nat -> nat) ks ls, StronglySorted lt ks -> Forall2 (fun k vs => forall x, In x vs -> R x = k) ks ls ->
  StronglySorted (fun a b => R a <= R b) (concat ls).
Proof.
  intros R ks ls S F. induction F as [|k vs ks ls H F IH]; [constructor|]. inversion S as [|? ? S1 S2]; subst. cbn [concat].
  assert (LT : forall y, In y (concat ls) -> k < R y).
  { intros y Hy. apply in_concat in Hy as [vs' [A B]]. destruct (Forall2_In_r _ _ _ _ F A) as [k' [C D]]. rewrite (D y B).
    rewrite Forall_forall in S2. apply S2. assumption. }
  specialize (IH S1). clear F S S1 S2. induction vs as [|x vs IHv]; cbn [app]; [assumption|]. constructor.
  - apply IHv. intros; apply H; right; assumption.
  - apply Forall_forall. intros y Hy. rewrite (H x) by (left; reflexivity). apply in_app_or in Hy as [Hy|Hy]; [rewrite (H y) by (right; assumption); lia|apply LT in Hy; lia].
Qed.
Lemma sorted_filter : forall {A} (R : A -> A -> Prop) (p : A -> bool) l, StronglySorted R l -> StronglySorted R (filter p l).
Proof.
  intros A R p l S. induction S as [|a l S IH F]; cbn [filter]; [constructor|]. destruct (p a); [|assumption]. constructor; [assumption|].
  rewrite Forall_forall in *. intros b Hb. apply filter_In in Hb as [Hb _]. auto.
Qed.
Lemma sorted_mid : forall {A} (R : A -> A -> Prop) l1 w l2, StronglySorted R (l1 ++ w :: l2) -> forall y, In y l2 -> R w y.
Proof.
  intros A R l1. induction l1 as [|a l1 IH]; intros w l2 S y Hy; cbn [app] in S; inversion S as [|? ? S1 S2]; subst.
  - rewrite Forall_forall in S2. auto.
  - apply (IH w l2 S1 y Hy).
Qed.

Section Moves.
  Variables (g : graph) (W : list wpath) (rk : vid -> nat) (m : nat) (l0 : list vid).
  Hypothesis GI : graph_of g W.
  Hypothesis NW : W <> [].
  Hypothesis RO : rank_ok g rk m l0.
  Variables (topo : graph -> res (list vid)) (ratio : str -> str -> Q).
  Hypothesis TO : topo_ok topo.
  Hypothesis AP : forall src w, In src (vertices g) -> In w (vertices g) -> ~ pinned g rk src -> w <> src ->
    pinned g rk w \/ (forall f, inc g f -> f w < f src) \/ (forall f v, inc g f -> edge g src v -> f v <= f w).
  Hypothesis ONE : forall src u v, ~ pinned g rk src -> edge g src u -> edge g src v -> u = v.

  (** Where a vertex off the longest paths stands in the end. *)
  Definition settled (f : vid -> nat) (src v : vid) : Prop :=
    (f src = rk src /\ f v = S (rk src)) \/
    exists w, pinned g rk w /\ rk src <= rk w < f v /\ f src = rk w /\
      forall x, pinned g rk x -> rk src <= rk x < f v ->
        (rk x < rk w -> (alike ratio g src x < alike ratio g src w)%Q) /\ (alike ratio g src x <= alike ratio g src w)%Q.

  Lemma near_edge_moves : forall g' r src v lb g2 r2, near_inv g rk m g' r -> edge g src v ->
    near_edge_step topo ratio (g', r) ((src, v), lb) = Ok (g2, r2) ->
    near_inv g rk m g2 r2 /\ (forall x, x <> src -> in_near_edges g2 x = in_near_edges g' x) /\
    (~ pinned g rk src -> in_near_edges g' src = [] -> settled (pos rk g2) src v).
  Proof.
    intros g' r src v lb g2 r2 NI He H. split; [apply (near_edge_inv g W rk m l0 GI NW RO topo ratio TO AP ONE g' r src v lb g2 r2 NI He H)|].
    destruct NI as [NO FP PL PS IN]. pose proof NO as [E _]. destruct (graph_edge_verts g W src v GI He) as [Hs Hv].
    pose proof (near_edge_run topo ratio g' r src v lb (g2, r2) [] (g2, r2) H (run_end _ _ _)) as R.
    assert (EE : forall a b, edge g' a b <-> edge g a b) by (intros; rewrite <- E; reflexivity).
    inversion R as [|? ? ? ? ? ? NR R1|? ? ? ? ? ? ks kv l w q r' HR CA MS RR R1]; subst; inversion R1; subst.
    - split; [reflexivity|]. intros NP FR. left. assert (P0 : pos rk g2 src = rk src) by (unfold pos; rewrite FR; reflexivity). split; [assumption|].
      pose proof (IN src v He) as L. rewrite P0 in L. destruct (Nat.eq_dec (pos rk g2 v) (S (rk src))) as [|N]; [assumption|]. exfalso.
      apply (NR (rk src) (pos rk g2 v)). unfold has_room, rank_at. rewrite (PS src Hs), (PS v Hv), P0. split; [reflexivity|]. split; [reflexivity|]. split; [lia|].
      intros x Ex Hx. apply EE in Ex. rewrite (ONE src x v NP Ex He) in Hx. rewrite (PS v Hv) in Hx. congruence.
    - assert (Nsv : v <> src) by (intros C; subst; apply (gi_acyclic _ _ GI src); apply t_step; assumption).
      split; [intros x Nx; unfold in_near_edges; cbn [connect_near g_near]; apply in_near_other; assumption|].
      intros NP FR. right. destruct HR as [H1 [H2 [H3 H4]]]. unfold rank_at in H1, H2. rewrite (PS src Hs) in H1. rewrite (PS v Hv) in H2. injection H1 as <-. injection H2 as <-.
      assert (P0 : pos rk g' src = rk src) by (unfold pos; rewrite FR; reflexivity). rewrite P0 in *.
      assert (PV : pos rk (connect_near g' w src q) v = pos rk g' v).
      { unfold pos, in_near_edges. cbn [connect_near g_near]. rewrite in_near_other by assumption. reflexivity. }
      assert (P2 : pos rk (connect_near g' w src q) src = rk w).
      { unfold pos, in_near_edges. cbn [connect_near g_near]. rewrite in_near_fresh; [reflexivity|exact FR]. }
      destruct CA as [ls [LF EL]].
      assert (LP : Forall2 (fun k vs => forall x, In x vs -> pos rk g' x = k) (seq (rk src) (pos rk g' v - rk src)) ls).
      { eapply Forall2_impl; [|exact LF]. intros k vs D x Hx. destruct (pd_lists _ _ _ _ PL k vs D) as [_ Q]. specialize (Q x Hx).
        destruct (pd_at _ _ _ _ PL x k Q) as [Hg _]. rewrite (PS x Hg) in Q. congruence. }
      assert (MEM : forall x, In x l <-> x <> src /\ In x (vertices g) /\ rk src <= pos rk g' x < pos rk g' v).
      { intros x. subst l. rewrite filter_In, negb_true_iff, Nat.eqb_neq, in_concat. split.
        - intros [[vs [A B]] N]. destruct (Forall2_In_r _ _ _ _ LF A) as [k [C D]]. apply in_seq in C. destruct (pd_lists _ _ _ _ PL k vs D) as [_ Q]. specialize (Q x B).
          destruct (pd_at _ _ _ _ PL x k Q) as [Hg _]. rewrite (PS x Hg) in Q. injection Q as Q. split; [assumption|]. split; [assumption|lia].
        - intros [N [Hg C]]. split; [|assumption]. destruct (pd_at _ _ _ _ PL x _ (PS x Hg)) as [_ [vs [D1 D2]]].
          assert (Ik : In (pos rk g' x) (seq (rk src) (pos rk g' v - rk src))) by (apply in_seq; lia).
          destruct (Forall2_In_l _ _ _ _ LF Ik) as [vs' [A B]]. exists vs'. split; [assumption|]. congruence. }
      assert (SO : StronglySorted (fun a b => pos rk g' a <= pos rk g' b) l) by (subst l; apply sorted_filter; apply (sorted_concat _ _ _ (seq_sorted _ _) LP)).
      destruct MS as [l1 [l2 [EL2 [S1 [M1 M2]]]]].
      assert (Iw : In w l) by (rewrite EL2; apply in_or_app; right; left; reflexivity). apply MEM in Iw as [Nw [Gw Kw]].
      assert (PW : pinned g rk w).
      { destruct (AP src w Hs Gw NP Nw) as [Q|[Q|Q]]; [assumption|pose proof (Q _ IN); lia|pose proof (Q _ v IN He); lia]. }
      pose proof (pos_pinned g rk g' w NO PW) as PPW. exists w. rewrite PV, P2. split; [assumption|]. split; [lia|]. split; [reflexivity|].
      rewrite (similarity_fun _ _ _ _ _ _ S1 (alike_similarity ratio g g' src w E Hs Gw)) in *.
      intros x Px Kx. pose proof (pinned_In g W rk GI x Px) as Hx. pose proof (pos_pinned g rk g' x NO Px) as PPX.
      assert (Ix : In x l) by (apply MEM; split; [intros C; subst; contradiction|]; split; [assumption|lia]).
      pose proof (alike_similarity ratio g g' src x E Hs Hx) as SX. rewrite EL2 in Ix. apply in_app_or in Ix as [Ix|[Ix|Ix]].
      + split; [intros _|apply Qlt_le_weak]; apply (M1 x _ Ix SX).
      + subst x. split; [lia|apply Qle_refl].
      + split; [|apply (M2 x _ Ix SX)]. intros L. exfalso. rewrite EL2 in SO. pose proof (sorted_mid _ _ _ _ SO x Ix). cbn beta in *. lia.
  Qed.

  Definition later_edge (e e' : vid * vid * str) : Prop := fst e' <> fst e /\ fst (fst e') <> snd (fst e).

  Lemma pos_same : forall g1 g2 x, in_near_edges g2 x = in_near_edges g1 x -> pos rk g2 x = pos rk g1 x.
  Proof. intros g1 g2 x E. unfold pos. rewrite E. reflexivity. Qed.
  Lemma settled_same : forall f f' src v, f' src = f src -> f' v = f v -> settled f src v -> settled f' src v.
  Proof. intros f f' src v A B. unfold settled. rewrite A, B. auto. Qed.

  Lemma edges_move : forall es g' r g2 r2, ForallOrdPairs later_edge es -> (forall e, In e es -> edge g (fst (fst e)) (snd (fst e))) ->
    near_inv g rk m g' r -> foldM (near_edge_step topo ratio) es (g', r) = Ok (g2, r2) ->
    near_inv g rk m g2 r2 /\ (forall x, (forall e, In e es -> fst (fst e) <> x) -> in_near_edges g2 x = in_near_edges g' x) /\
    (forall src v lb, In ((src, v), lb) es -> ~ pinned g rk src -> in_near_edges g' src = [] -> settled (pos rk g2) src v).
  Proof.
    induction es as [|[[s u] lb0] es IH]; intros g' r g2 r2 OR He NI H.
    - injection H as <- <-. split; [assumption|]. split; [reflexivity|]. intros src v lb [].
    - cbn [foldM] in H. apply bind_ok in H as [[g1 r1] [H1 H2]]. inversion OR as [|? ? OR1 OR2]; subst. rewrite Forall_forall in OR1.
      pose proof (He _ (or_introl eq_refl)) as E0. cbn [fst snd] in E0.
      destruct (near_edge_moves g' r s u lb0 g1 r1 NI E0 H1) as [NI1 [KE ST]].
      destruct (IH g1 r1 g2 r2 OR2 (fun e Hi => He e (or_intror Hi)) NI1 H2) as [NI2 [KE2 ST2]].
      split; [assumption|]. split.
      + intros x Hx. rewrite KE2 by (intros e Hi; apply Hx; right; assumption). apply KE. intros C. apply (Hx _ (or_introl eq_refl)). cbn [fst]. congruence.
      + intros src v lb [Q|Q] NP FR.
        * injection Q as -> -> ->. apply settled_same with (pos rk g1); [| |apply ST; assumption].
          -- apply pos_same, KE2. intros [[a b] lb'] Hi C. cbn [fst] in C. subst a. pose proof (He _ (or_intror Hi)) as E1. cbn [fst snd] in E1.
             rewrite (ONE src b v NP E1 E0) in Hi. destruct (OR1 _ Hi) as [N _]. apply N. reflexivity.
          -- apply pos_same, KE2. intros e Hi C. destruct (OR1 _ Hi) as [_ N]. apply N. exact C.
        * apply (ST2 src v lb Q NP). rewrite KE; [assumption|]. intros C. subst src. pose proof (He _ (or_intror Q)) as E1. cbn [fst snd] in E1.
          rewrite (ONE s v u NP E1 E0) in Q. destruct (OR1 _ Q) as [N _]. apply N. reflexivity.
  Qed.

  Lemma in_edges_same : forall g' v, without_near g' = g -> in_edges g' v = in_edges g v.
  Proof. intros g' v E. rewrite <- E. reflexivity. Qed.

  Lemma flat_edges : forall L g' r st, near_inv g rk m g' r ->
    foldM (fun st v => foldM (near_edge_step topo ratio) (in_edges (fst st) v) st) L (g', r) = Ok st ->
    foldM (near_edge_step topo ratio) (flat_map (in_edges g) L) (g', r) = Ok st.
  Proof.
    induction L as [|v L IH]; intros g' r st NI H; [assumption|]. cbn [foldM flat_map fst] in *. apply bind_ok in H as [[g1 r1] [H1 H2]].
    rewrite (in_edges_same g' v (proj1 (ni_ok _ _ _ _ _ NI))) in H1. rewrite foldM_app, H1. cbn [bind]. apply IH; [|assumption].
    assert (G : forall es g1 r1 g2 r2, (forall e, In e es -> edge g (fst (fst e)) (snd (fst e))) -> near_inv g rk m g1 r1 ->
      foldM (near_edge_step topo ratio) es (g1, r1) = Ok (g2, r2) -> near_inv g rk m g2 r2).
    { clear - GI NW RO TO AP ONE. induction es as [|[[a b] lb] es IH]; intros g1 r1 g2 r2 He N F; [injection F as <- <-; assumption|].
      cbn [foldM] in F. apply bind_ok in F as [[g3 r3] [F1 F2]]. apply (IH g3 r3); [intros; apply He; right; assumption| |assumption].
      apply (near_edge_moves g1 r1 a b lb g3 r3 N (He _ (or_introl eq_refl)) F1). }
    apply (G (in_edges g v) g' r); [|assumption|assumption]. intros e Hi. unfold in_edges in Hi. apply filter_In in Hi as [Hi _]. apply (in_map fst) in Hi.
    destruct e as [[a b] lb]. exact Hi.
  Qed.

  Lemma later_edges : forall L, ForallOrdPairs (fun a b => ~ edge g a b /\ b <> a) L -> ForallOrdPairs later_edge (flat_map (in_edges g) L).
  Proof.
    assert (EN : NoDup (map fst (g_edges g))) by apply (gi_edges_nodup _ _ GI).
    assert (AC : forall v, ~ edge g v v) by (intros v C; apply (gi_acyclic _ _ GI v); apply t_step; assumption).
    assert (IE : forall v e, In e (in_edges g v) -> edge g (fst (fst e)) v /\ snd (fst e) = v).
    { intros v e Hi. unfold in_edges in Hi. apply filter_In in Hi as [Hi Hb]. apply Nat.eqb_eq in Hb. apply (in_map fst) in Hi. destruct e as [[a b] lb]. cbn [fst snd] in *. subst. auto. }
    assert (OA : forall l1 l2, ForallOrdPairs later_edge l1 -> ForallOrdPairs later_edge l2 -> (forall e e', In e l1 -> In e' l2 -> later_edge e e') -> ForallOrdPairs later_edge (l1 ++ l2)).
    { induction 1 as [|e l1 F1 F2 IH]; intros B C; cbn [app]; [assumption|]. constructor.
      - apply Forall_forall. intros e' Hi. rewrite Forall_forall in F1. apply in_app_or in Hi as [Hi|Hi]; [auto|apply C; [left; reflexivity|assumption]].
      - apply IH; [assumption|]. intros a b A B'. apply C; [right; assumption|assumption]. }
    assert (BL : forall v, ForallOrdPairs later_edge (in_edges g v)).
    { intros v. assert (N : NoDup (map fst (in_edges g v))).
      { unfold in_edges. clear - EN. induction (g_edges g) as [|e l IH]; [constructor|]. cbn [map] in EN. inversion EN as [|? ? A B]; subst. cbn [filter].
        destruct (snd (fst e) =? v); [|apply IH; assumption]. cbn [map]. constructor; [|apply IH; assumption]. intros C. apply A.
        apply in_map_iff in C as [e' [C1 C2]]. apply filter_In in C2 as [C2 _]. rewrite <- C1. apply in_map. assumption. }
      assert (I : forall e, In e (in_edges g v) -> edge g (fst (fst e)) v /\ snd (fst e) = v) by apply IE.
      induction (in_edges g v) as [|e l IH]; [constructor|]. cbn [map] in N. inversion N as [|? ? A B]; subst. constructor.
      - apply Forall_forall. intros e' Hi. split; [intros C; apply A; rewrite <- C; apply in_map; assumption|].
        intros C. destruct (I e' (or_intror Hi)) as [I1 _]. destruct (I e (or_introl eq_refl)) as [_ I2]. rewrite C, I2 in I1. apply (AC v I1).
      - apply IH; [assumption|]. intros; apply I; right; assumption. }
    induction 1 as [|v L F1 F2 IH]; cbn [flat_map]; [constructor|]. apply OA; [apply BL|assumption|]. rewrite Forall_forall in F1.
    intros e e' Hi Hi'. apply in_flat_map in Hi' as [u [Hu Hi']]. destruct (F1 u Hu) as [A B]. destruct (IE v e Hi) as [I1 I2]. destruct (IE u e' Hi') as [I3 I4]. split.
    - intros C. apply B. rewrite <- I4, C, I2. reflexivity.
    - intros C. apply A. rewrite <- I2, <- C. assumption.
  Qed.

  Lemma rev_ordered : forall l, NoDup l -> (forall u v, edge g u v -> before u v l) -> ForallOrdPairs (fun a b => ~ edge g a b /\ b <> a) (rev l).
  Proof.
    intros l N B.
    assert (G : forall k1 k2, rev l = k1 ++ k2 -> ForallOrdPairs (fun a b => ~ edge g a b /\ b <> a) k2).
    { intros k1 k2. revert k1. induction k2 as [|a k2 IH]; intros k1 E; [constructor|]. constructor; [|apply (IH (k1 ++ [a])); rewrite <- app_assoc; exact E].
      apply Forall_forall. intros b Hb. assert (NR : NoDup (k1 ++ a :: k2)) by (rewrite <- E; apply NoDup_rev; assumption). split.
      - intros C. apply B in C as [l1 [l2 [l3 C]]]. assert (E2 : k1 ++ a :: k2 = rev (l1 ++ a :: l2 ++ b :: l3)) by congruence.
        rewrite rev_app_distr in E2. cbn [rev] in E2. rewrite <- app_assoc in E2. cbn [app] in E2.
        destruct (app_inj_NoDup a k1 k2 _ _ NR E2) as [Q1 Q2].
        apply NoDup_app_iff in NR as [_ [_ NR]]. apply (NR b); [|right; assumption]. rewrite Q1. rewrite <- in_rev. apply in_or_app. right. left. reflexivity.
      - intros C. subst b. apply NoDup_app_iff in NR as [_ [NR _]]. inversion NR. contradiction. }
    apply (G []). reflexivity.
  Qed.

  Theorem near_settled : exists g2 r2, perform_near_match topo ratio g (ranking_for rk m l0) = Ok (g2, r2) /\ near_inv g rk m g2 r2 /\
    forall src v, ~ pinned g rk src -> edge g src v -> settled (pos rk g2) src v.
  Proof.
    destruct (near_match_inv g W rk m l0 GI NW RO topo ratio TO AP ONE) as [g2 [r2 [H NI]]]. exists g2, r2. split; [assumption|]. split; [assumption|].
    unfold perform_near_match in H. apply bind_ok in H as [l [T H]]. apply bind_ok in H as [[g3 r3] [F H]]. apply bind_ok in H as [r4 [R H]]. injection H as -> ->.
    assert (NI0 : near_inv g rk m g (ranking_for rk m l0)).
    { pose proof (gi_near _ _ GI) as N.
      assert (PZ : forall x, pos rk g x = rk x) by (intros x; unfold pos, in_near_edges; rewrite N; reflexivity).
      constructor.
      - split; [destruct g as [a b n d]; cbn in N |- *; subst n; reflexivity|]. rewrite N. intros u v q [].
      - intros u v q Hi. rewrite N in Hi. destruct Hi.
      - apply (base_placed g W rk m l0 GI NW RO rk m l0 RO).
      - intros x Hx. rewrite PZ. apply (by_vertex_get _ _ _ _ _ RO Hx).
      - intros u v E. rewrite !PZ. apply (ro_edge _ _ _ _ RO u v E). }
    destruct (TO g (gi_verts _ _ GI) (fun u v => graph_edge_verts g W u v GI) (gi_edges_nodup _ _ GI) (gi_acyclic _ _ GI)) as [l' [T1 [T2 T3]]].
    rewrite T1 in T. injection T as <-.
    assert (NL : NoDup l') by (apply Permutation_NoDup with (vertices g); [symmetry; assumption|apply (gi_verts _ _ GI)]).
    apply (flat_edges _ _ _ _ NI0) in F. intros src v NP E.
    destruct (edges_move _ _ _ _ _ (later_edges _ (rev_ordered l' NL T3)) ltac:(
      intros e Hi; apply in_flat_map in Hi as [u [_ Hi]]; unfold in_edges in Hi; apply filter_In in Hi as [Hi _]; apply (in_map fst) in Hi; destruct e as [[a b] lb]; exact Hi) NI0 F) as [_ [_ ST]].
    pose proof E as E'. unfold edge, edge_pairs in E'. apply in_map_iff in E' as [[[a b] lb] [Q1 Q2]]. cbn [fst] in Q1. injection Q1 as -> ->.
    apply (ST src v lb); [|assumption|].
    - apply in_flat_map. exists v. split.
      + rewrite <- in_rev. apply Permutation_in with (vertices g); [symmetry; assumption|]. apply (graph_edge_verts g W src v GI E).
      + unfold in_edges. apply filter_In. split; [assumption|]. apply Nat.eqb_refl.
    - unfold in_near_edges. rewrite (gi_near _ _ GI). reflexivity.
  Qed.
End Moves.
