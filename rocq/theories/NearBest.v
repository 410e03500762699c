(** Near matching moves a vertex to the most similar candidate (C47). *)
From Verif Require Import Py TokenModel SuffixModel IndexModel GraphModel AlignModel TableModel NearModel ExportModel
  CollateModel Lib GraphSpec GraphProof MergeProof RankProof AlignerProof TableSpec TableProof AlignProof CollateProof CollateSpec ResultProof
  StageProof OutputProof NearProof NearSpec IdentProof.
From Coq Require Import Permutation Relations QArith.
Open Scope list_scope.
Open Scope nat_scope.

Lemma shown_str : forall vx s, shown vx s <-> s = vertex_str vx.
Proof. intros vx s. unfold shown, vertex_str. destruct (v_label vx); split; intuition congruence. Qed.

Lemma similarity_iff : forall ratio g a b q, similarity ratio g a b q <->
  exists ax bx, get_vertex g a = Ok ax /\ get_vertex g b = Ok bx /\ q = ratio (vertex_str ax) (vertex_str bx).
Proof.
  intros. unfold similarity, get_vertex. split.
  - intros [ax [bx [sa [sb [A [B [C [D ->]]]]]]]]. apply shown_str in C, D. subst sa sb. exists ax, bx. unfold dgetE. rewrite A, B. auto.
  - intros [ax [bx [A [B ->]]]]. apply (dgetE_ok _) in A, B. exists ax, bx, (vertex_str ax), (vertex_str bx). rewrite !shown_str. auto.
Qed.

Lemma similarity_fun : forall ratio g a b q q', similarity ratio g a b q -> similarity ratio g a b q' -> q = q'.
Proof.
  intros ratio g a b q q' H H'. apply similarity_iff in H as [x [y [A [B ->]]]]. apply similarity_iff in H' as [x' [y' [A' [B' ->]]]]. congruence.
Qed.

Lemma best_most_similar : forall ratio g src l w q, best_candidate ratio g src l = Ok (w, q) -> most_similar ratio g src l w q.
Proof.
  intros ratio g src l w q H. unfold best_candidate in H. apply bind_ok in H as [sx [Es H]].
  match type of H with context [foldM ?f l None] => set (F := f) in H end.
  apply bind_ok in H as [o [H E]]. destruct o as [[w' q']|]; [|discriminate]. injection E as -> ->.
  assert (G : forall l pre b o, foldM F l b = Ok o ->
     match b with None => pre = [] | Some (c, qc) => most_similar ratio g src pre c qc end ->
     match o with None => pre ++ l = [] | Some (c, qc) => most_similar ratio g src (pre ++ l) c qc end).
  { clear H. induction l0 as [|x l0 IH]; intros pre b o H B.
    - injection H as <-. rewrite app_nil_r. exact B.
    - cbn [foldM] in H. apply bind_ok in H as [b1 [H1 H2]]. replace (pre ++ x :: l0) with ((pre ++ [x]) ++ l0) by (rewrite <- app_assoc; reflexivity).
      apply (IH (pre ++ [x]) b1 o H2). unfold F in H1. apply bind_ok in H1 as [cx [Ec H1]]. injection H1 as <-.
      assert (SX : similarity ratio g src x (ratio (vertex_str sx) (vertex_str cx))) by (apply similarity_iff; eauto).
      destruct b as [[c qc]|].
      + destruct B as [l1 [l2 [-> [S1 [L1 L2]]]]]. destruct (Qle_bool _ qc) eqn:Q.
        * apply Qle_bool_iff in Q. exists l1, (l2 ++ [x]). split; [rewrite <- app_assoc; reflexivity|]. split; [assumption|]. split; [assumption|].
          intros y qy Hy Sy. apply in_app_or in Hy as [Hy|[<-|[]]]; [eauto|]. rewrite (similarity_fun _ _ _ _ _ _ Sy SX). assumption.
        * assert (Q' : (qc < ratio (vertex_str sx) (vertex_str cx))%Q).
          { apply Qnot_le_lt. intros C. apply Qle_bool_iff in C. congruence. }
          exists (l1 ++ c :: l2), []. split; [reflexivity|]. split; [assumption|]. split; [|intros y qy []].
          intros y qy Hy Sy. apply in_app_or in Hy as [Hy|[<-|Hy]].
          -- apply Qlt_trans with qc; eauto.
          -- rewrite (similarity_fun _ _ _ _ _ _ Sy S1). assumption.
          -- apply Qle_lt_trans with qc; eauto.
      + subst pre. exists [], []. split; [reflexivity|]. split; [assumption|]. split; intros y qy []. }
  apply (G l [] None _ H). reflexivity.
Qed.

Lemma rank_at_fun : forall r v k k', rank_at r v k -> rank_at r v k' -> k = k'.
Proof. unfold rank_at. intros. congruence. Qed.

Lemma edge_out : forall g src x, edge g src x <-> exists lb, In ((src, x), lb) (out_edges g src).
Proof.
  intros g src x. unfold edge, edge_pairs, out_edges. rewrite in_map_iff. split.
  - intros [[[a b] lb] [E H]]. cbn [fst] in E. injection E as -> ->. exists lb. apply filter_In. split; [assumption|]. apply Nat.eqb_refl.
  - intros [lb H]. apply filter_In in H as [H _]. exists ((src, x), lb). auto.
Qed.

Lemma Forall2_In_l : forall {A B} (P : A -> B -> Prop) l r x, Forall2 P l r -> In x l -> exists y, In y r /\ P x y.
Proof.
  intros A B P l r x F. induction F as [|a b l r E F IH]; intros H; [contradiction|].
  destruct H as [<-|H]; [exists b; split; [left|]; auto|]. destruct (IH H) as [y [Y1 Y2]]. exists y. split; [right|]; auto.
Qed.
Lemma Forall2_In_r : forall {A B} (P : A -> B -> Prop) l r y, Forall2 P l r -> In y r -> exists x, In x l /\ P x y.
Proof.
  intros A B P l r y F. induction F as [|a b l r E F IH]; intros H; [contradiction|].
  destruct H as [<-|H]; [exists a; split; [left|]; auto|]. destruct (IH H) as [x [Y1 Y2]]. exists x. split; [right|]; auto.
Qed.

Lemma near_edge_run : forall topo ratio g r src v lb st es st', near_edge_step topo ratio (g, r) ((src, v), lb) = Ok st ->
  near_run topo ratio es st st' -> near_run topo ratio ((src, v) :: es) (g, r) st'.
Proof.
  intros topo ratio g r src v lb st es st' H R. unfold near_edge_step in H.
  apply bind_ok in H as [rv [Hv H]]. apply bind_ok in H as [rs [Hs H]]. apply (dgetE_ok _) in Hv, Hs.
  destruct (Z.ltb 1 (Z.of_nat rv - Z.of_nat rs)) eqn:Gap.
  - apply Z.ltb_lt in Gap. apply bind_ok in H as [ds [Hd H]]. apply mapM_Forall2 in Hd.
    destruct (existsb (Z.eqb 1) ds) eqn:One.
    + injection H as <-. apply run_stay; [|assumption]. intros ks kv [R1 [R2 [R3 R4]]].
      apply existsb_exists in One as [z [Hz Ez]]. apply Z.eqb_eq in Ez. subst z.
      destruct (Forall2_In_r _ _ _ _ Hd Hz) as [[[a b] lb'] [He Hf]]. cbn [fst snd] in Hf.
      apply bind_ok in Hf as [ra [Ha Hf]]. apply bind_ok in Hf as [rb [Hb Hf]]. apply (dgetE_ok _) in Ha, Hb. injection Hf as Hf.
      assert (a = src) by (unfold out_edges in He; apply filter_In in He as [_ He]; apply Nat.eqb_eq in He; exact He). subst a.
      assert (ks = rb) by (apply (rank_at_fun r src); assumption). subst ks.
      apply (R4 b); [apply edge_out; eauto|]. unfold rank_at. rewrite Ha. f_equal. lia.
    + apply bind_ok in H as [ls [Hl H]]. apply bind_ok in H as [[w q] [Hb H]]. apply bind_ok in H as [r' [Hr H]]. injection H as <-.
      apply mapM_Forall2 in Hl. eapply run_move with (ks := rs) (kv := rv); [| |apply best_most_similar; exact Hb|exact Hr|exact R].
      * split; [assumption|]. split; [assumption|]. split; [lia|]. intros x He Hx. apply edge_out in He as [lb' He].
        destruct (Forall2_In_l _ _ _ _ Hd He) as [z [Hz Hf]]. cbn [fst snd] in Hf. unfold dgetE in Hf. unfold rank_at in Hx. rewrite Hx in Hf. cbn [bind] in Hf. rewrite Hs in Hf.
        cbn [bind] in Hf. injection Hf as <-.
        assert (C : existsb (Z.eqb 1) ds = true) by (apply existsb_exists; exists (Z.of_nat (S rs) - Z.of_nat rs)%Z; split; [assumption|apply Z.eqb_eq; lia]). congruence.
      * exists ls. split; [|reflexivity]. clear - Hl. induction Hl as [|k vs l1 l2 E F IH]; constructor; [apply (dgetE_ok _) in E; exact E|assumption].
  - apply Z.ltb_ge in Gap. injection H as <-. apply run_stay; [|assumption]. intros ks kv [R1 [R2 [R3 _]]].
    assert (ks = rs) by (apply (rank_at_fun r src); assumption). assert (kv = rv) by (apply (rank_at_fun r v); assumption). lia.
Qed.

Lemma near_run_app : forall topo ratio es1 es2 st st1 st2, near_run topo ratio es1 st st1 -> near_run topo ratio es2 st1 st2 -> near_run topo ratio (es1 ++ es2) st st2.
Proof.
  intros topo ratio es1 es2 st st1 st2 H. induction H; intros R; cbn [app]; [assumption|apply run_stay; auto|eapply run_move; eauto].
Qed.

Lemma edges_run : forall topo ratio es st st', foldM (near_edge_step topo ratio) es st = Ok st' -> near_run topo ratio (map fst es) st st'.
Proof.
  intros topo ratio es. induction es as [|[[src v] lb] es IH]; intros st st' H; cbn [foldM map fst] in *; [injection H as <-; constructor|].
  apply bind_ok in H as [st1 [H1 H2]]. destruct st as [g r]. apply (near_edge_run topo ratio g r src v lb st1); [assumption|]. apply IH. assumption.
Qed.

Lemma in_edges_pairs : forall g v, map fst (in_edges g v) = filter (fun e => snd e =? v) (edge_pairs g).
Proof.
  intros g v. unfold in_edges, edge_pairs. induction (g_edges g) as [|[[a b] lb] es IH]; [reflexivity|]. cbn [filter map fst snd].
  destruct (b =? v); cbn [map fst]; rewrite IH; reflexivity.
Qed.

Lemma match_run : forall topo ratio g r g' r', perform_near_match topo ratio g r = Ok (g', r') ->
  exists order rl, topo g = Ok order /\ near_run topo ratio (edges_into g (rev order)) (g, r) (g', rl) /\ ranking_of topo g' = Ok r'.
Proof.
  intros topo ratio g r g' r' H. unfold perform_near_match in H. apply bind_ok in H as [order [T H]].
  apply bind_ok in H as [[g1 r1] [H1 H]]. apply bind_ok in H as [r2 [H2 H]]. injection H as <- <-.
  exists order, r1. split; [assumption|]. split; [|assumption]. clear T H2 r2.
  assert (G : forall L st st', without_near (fst st) = without_near g -> foldM (fun st v => foldM (near_edge_step topo ratio) (in_edges (fst st) v) st) L st = Ok st' ->
    near_run topo ratio (edges_into g L) st st').
  { induction L as [|v L IH]; intros st st' E H; cbn [foldM] in H; [injection H as <-; constructor|].
    apply bind_ok in H as [st1 [Ha Hb]]. unfold edges_into. cbn [flat_map]. apply near_run_app with st1.
    - rewrite <- in_edges_pairs. replace (in_edges g v) with (in_edges (fst st) v); [apply edges_run; assumption|].
      change (in_edges (fst st) v) with (in_edges (without_near (fst st)) v). rewrite E. reflexivity.
    - apply IH; [|assumption]. rewrite <- E. apply (foldM_same (fun s => without_near (fst s))) in Ha; [exact Ha|]. intros s a s' He. apply (near_edge_same _ _ _ _ _ He). }
  apply G; [reflexivity|assumption].
Qed.

(** ** A single move *)
Lemma near_run_keys : forall topo ratio es st st', near_run topo ratio es st st' ->
  g_verts (fst st') = g_verts (fst st) /\ forall k, In k (map fst (g_near (fst st))) -> In k (map fst (g_near (fst st'))).
Proof.
  intros topo ratio es st st' H. induction H as [st|src v es g r st NR R IH|src v es g r st ks kv l w q r' HR C MS RK R IH]; [auto|exact IH|].
  destruct IH as [E IH]. cbn [fst connect_near g_verts g_near] in E, IH. split; [exact E|]. intros k Hk. apply IH. apply (dset_In_key _ edge_eqb_ok). right. exact Hk.
Qed.

Lemma one_key_stays : forall topo ratio es st st', near_run topo ratio es st st' -> forall w src q q',
  g_near (fst st) = [((w, src), q)] -> g_near (fst st') = [((w, src), q')] -> similarity ratio (fst st) src w q ->
  fst st' = fst st.
Proof.
  intros topo ratio es st st' H. induction H as [st|src v es g r st NR R IH|src v es g r st ks kv l w q r' HR C MS RK R IH]; intros w0 src0 q0 q0' E1 E2 S; [reflexivity|eauto|].
  pose proof (near_run_keys _ _ _ _ _ R) as [_ KK]. cbn [fst connect_near g_near] in *.
  assert (I : In (w, src) (map fst (dset edge_eqb (w, src) q (g_near g)))) by (apply (dset_In_key _ edge_eqb_ok); left; reflexivity).
  apply KK in I. rewrite E2 in I. destruct I as [I|[]]. cbn [fst] in I. injection I as -> ->.
  destruct MS as [l1 [l2 [_ [S1 _]]]]. pose proof (similarity_fun _ _ _ _ _ _ S S1) as Q. subst q0.
  assert (EG : connect_near g w src q = g).
  { unfold connect_near. rewrite E1. cbn [dset]. replace (edge_eqb (w, src) (w, src)) with true by (symmetry; apply edge_eqb_ok; reflexivity).
    rewrite <- E1. destruct g; reflexivity. }
  rewrite EG in IH. apply (IH w src q q0'); [|assumption|assumption].
  change (g_near (connect_near g w src q) = [((w, src), q)]). rewrite EG. exact E1.
Qed.

Lemma one_move : forall topo ratio es st st', near_run topo ratio es st st' -> forall w src q, g_near (fst st) = [] -> g_near (fst st') = [((w, src), q)] ->
  exists v ks kv l, In (src, v) es /\ has_room (fst st) (snd st) src v ks kv /\ candidates (snd st) src ks kv l /\ most_similar ratio (fst st) src l w q /\
    fst st' = connect_near (fst st) w src q.
Proof.
  intros topo ratio es st st' H. induction H as [st|src v es g r st NR R IH|src v es g r st ks kv l w q r' HR C MS RK R IH]; intros w0 src0 q0 E1 E2.
  - congruence.
  - destruct (IH w0 src0 q0 E1 E2) as [v0 [ks [kv [l [A B]]]]]. exists v0, ks, kv, l. split; [right; assumption|exact B].
  - clear IH. pose proof (near_run_keys _ _ _ _ _ R) as [_ KK]. cbn [fst snd] in *.
    assert (EN : g_near (connect_near g w src q) = [((w, src), q)]) by (cbn [connect_near g_near]; rewrite E1; reflexivity).
    rewrite EN, E2 in KK. destruct (KK (w, src) (or_introl eq_refl)) as [I|[]]. cbn [fst] in I. injection I as -> ->.
    assert (S1 : similarity ratio g src w q) by (destruct MS as [l1 [l2 [_ [S1 _]]]]; exact S1).
    pose proof (one_key_stays _ _ _ _ _ R w src q q0 EN E2) as ES. cbn [fst] in ES. specialize (ES S1).
    assert (q = q0) by (rewrite ES, EN in E2; congruence). subst q0.
    exists v, ks, kv, l. split; [left; reflexivity|]. auto.
Qed.

Lemma no_move : forall topo ratio es st st', near_run topo ratio es st st' -> g_near (fst st') = [] ->
  st' = st /\ forall src v ks kv, In (src, v) es -> ~ has_room (fst st) (snd st) src v ks kv.
Proof.
  intros topo ratio es st st' H. induction H as [st|src v es g r st NR R IH|src v es g r st ks kv l w q r' HR C MS RK R IH]; intros E.
  - split; [reflexivity|intros src v ks kv []].
  - destruct (IH E) as [A B]. split; [assumption|]. intros s0 v0 ks kv [Q|Q]; [injection Q as <- <-; apply NR|apply B; assumption].
  - pose proof (near_run_keys _ _ _ _ _ R) as [_ KK]. exfalso. cbn [fst connect_near g_near] in KK. rewrite E in KK.
    apply (KK (w, src)). apply (dset_In_key _ edge_eqb_ok). left. reflexivity.
Qed.

(** ** The ranks after one move *)
Lemma near_step_vertex : forall r u v q r', near_step r ((u, v), q) = Ok r' -> exists k, rank_at r u k /\ by_vertex r' = dset Nat.eqb v k (by_vertex r).
Proof.
  intros r u v q r' H. unfold near_step in H. apply bind_ok in H as [ur [Hu H]]. apply bind_ok in H as [vr [_ H]]. apply bind_ok in H as [ol [_ H]].
  apply bind_ok in H as [ol' [_ H]]. apply bind_ok in H as [nl [_ H]]. injection H as <-. apply (dgetE_ok _) in Hu. exists ur. split; [exact Hu|reflexivity].
Qed.

Lemma one_near_rank : forall topo g0 W rk m l w src q r, topo_ok topo -> graph_of g0 W -> W <> [] -> rank_ok g0 rk m l ->
  In src (vertices g0) -> In w (vertices g0) -> w <> src -> ranking_of topo (connect_near g0 w src q) = Ok r ->
  rank_at r src (rk w) /\ forall x k, x <> src -> (rank_at r x k <-> rank_at (ranking_for rk m l) x k).
Proof.
  intros topo g0 W rk m l w src q r TO GI NW RO Hs Hw NE H. pose proof (gi_near _ _ GI) as N0.
  set (g := connect_near g0 w src q) in *. assert (EG : without_near g = g0) by (destruct g0 as [a b n d]; cbn in N0; subst n; reflexivity).
  assert (NN : g_near g = [((w, src), q)]) by (unfold g; cbn [connect_near g_near]; rewrite N0; reflexivity).
  destruct (TO g) as [l' [T1 [T2 T3]]].
  { change (vertices g) with (vertices (without_near g)). rewrite EG. apply (gi_verts _ _ GI). }
  { intros u v. change (edge g u v) with (edge (without_near g) u v). change (vertices g) with (vertices (without_near g)). rewrite EG. apply (graph_edge_verts g0 W u v GI). }
  { change (edge_pairs g) with (edge_pairs (without_near g)). rewrite EG. apply (gi_edges_nodup _ _ GI). }
  { change (acyclic g) with (acyclic (without_near g)). rewrite EG. apply (gi_acyclic _ _ GI). }
  unfold ranking_of in H. rewrite T1 in H. cbn [bind] in H. apply bind_ok in H as [rb [B H]].
  assert (B0 : exists rk' m', rb = ranking_for rk' m' l' /\ rank_ok g0 rk' m' l').
  { change (vertices g) with (vertices (without_near g)) in T2. rewrite EG in T2.
    assert (T3' : forall u v, edge g0 u v -> before u v l') by (rewrite <- EG; exact T3).
    assert (ND : NoDup l') by (apply Permutation_NoDup with (vertices g0); [symmetry; assumption | apply (gi_verts _ _ GI)]).
    destruct (rank_fold g0 l' ND) as [rk' [m' [R1 [R2 [R3 R4]]]]]; [intros u v Hi _; apply T3'; assumption|].
    assert (IL : forall v, In v l' <-> In v (vertices g0)) by (intros v; split; apply Permutation_in; [assumption | symmetry; assumption]).
    exists rk', m'. split.
    - assert (X : foldM (rank_step g) l' {| by_vertex := []; by_rank := [] |} = Ok (ranking_for rk' m' l')) by (rewrite <- R1, <- EG; reflexivity). congruence.
    - constructor; auto.
      + intros v Hv. apply R2. apply IL. assumption.
      + intros r1 Hr. destruct (R3 r1 Hr) as [v [V1 V2]]. exists v. rewrite <- IL. auto.
      + intros v Hv. apply R4. apply IL. assumption.
      + intros u v He. pose proof (rank_of_edge g0 rk' u v He) as Q. rewrite <- R4 in Q; [lia|]. apply T3' in He. apply before_In in He as [_ He]. assumption. }
  destruct B0 as [rk' [m' [-> RO']]]. destruct (rank_unique g0 W rk' m' l' rk m l GI NW RO' RO) as [E [-> _]].
  assert (IL : In src l') by (apply (Permutation_in _ (Permutation_sym (ro_perm _ _ _ _ RO'))); assumption).
  assert (ND : NoDup l') by (apply Permutation_NoDup with (vertices g0); [symmetry; apply (ro_perm _ _ _ _ RO')|apply (gi_verts _ _ GI)]).
  assert (F : forall L r0 r1, NoDup L -> foldM (fun r v => foldM near_step (in_near_edges g v) r) L r0 = Ok r1 ->
    (In src L -> near_step r0 ((w, src), q) = Ok r1) /\ (~ In src L -> r1 = r0)).
  { induction L as [|v L IH]; intros r0 r1 NL HL; [injection HL as <-; split; [intros []|auto]|]. cbn [foldM] in HL. apply NoDup_cons_iff in NL as [N1 N2].
    apply bind_ok in HL as [r2 [H1 H2]]. destruct (IH r2 r1 N2 H2) as [I1 I2].
    assert (X : in_near_edges g v = if src =? v then [((w, src), q)] else []) by (unfold in_near_edges; rewrite NN; cbn [filter fst snd]; reflexivity).
    rewrite X in H1. destruct (src =? v) eqn:Q.
    - apply Nat.eqb_eq in Q. subst v. cbn [foldM] in H1. apply bind_ok in H1 as [r3 [H1 H3]]. injection H3 as ->. rewrite (I2 N1). split; [auto|]. intros C. exfalso. apply C. left. reflexivity.
    - apply Nat.eqb_neq in Q. injection H1 as ->. split; [intros [C|C]; [congruence|apply I1; assumption]|]. intros C. apply I2. intros C'. apply C. right. assumption. }
  destruct (F (rev l') _ r (NoDup_rev ND) H) as [F1 _]. specialize (F1 (proj1 (in_rev l' src) IL)).
  apply near_step_vertex in F1 as [k [K1 K2]]. unfold rank_at in *. rewrite (by_vertex_get g0 rk' m l' w RO' Hw) in K1. injection K1 as <-.
  rewrite K2. split; [rewrite (dget_set _ nat_eqb_ok), Nat.eqb_refl; f_equal; apply E; assumption|].
  intros x k NX. rewrite (dget_set _ nat_eqb_ok). replace (src =? x) with false by (symmetry; apply Nat.eqb_neq; congruence). split; intros D.
  - destruct (by_vertex_inv _ _ _ _ _ _ RO' D) as [Hx ->]. rewrite (E x Hx). apply (by_vertex_get g0); assumption.
  - destruct (by_vertex_inv _ _ _ _ _ _ RO D) as [Hx ->]. rewrite <- (E x Hx). apply (by_vertex_get g0); assumption.
Qed.

(** ** collate *)
Section Best.
  Variables (cc : cclass) (topo : graph -> res (list vid)) (ratio : str -> str -> Q).
  Hypothesis TO : topo_ok topo.

  Theorem near_collate_run : forall c o g0 r0 g r, o_segmentation o = false ->
    collate_graph cc topo ratio c (set_near o false) = Ok (g0, r0) -> collate_graph cc topo ratio c (set_near o true) = Ok (g, r) ->
    exists order rl, topo g0 = Ok order /\ near_run topo ratio (edges_into g0 (rev order)) (g0, r0) (g, rl) /\ ranking_of topo g = Ok r.
  Proof.
    intros c o g0 r0 g r Hs H0 H1. unfold collate_graph in *. cbn [set_near o_astar o_filter o_transp o_near o_segmentation] in *.
    apply bind_ok in H0 as [[ti g1] [A H0]]. rewrite A in H1. cbn [bind] in H1. apply bind_ok in H0 as [r1 [R H0]]. rewrite R in H1. cbn [bind] in *.
    rewrite Hs in *. injection H0 as -> ->. apply bind_ok in H1 as [[g2 r2] [M H1]]. injection H1 as <- <-.
    apply match_run. exact M.
  Qed.

  Theorem near_collate_one : forall c o g0 r0 g r w src q, good_sigla c -> o_segmentation o = false ->
    collate_graph cc topo ratio c (set_near o false) = Ok (g0, r0) -> collate_graph cc topo ratio c (set_near o true) = Ok (g, r) ->
    g_near g = [((w, src), q)] ->
    exists v ks kv kw l, edge g0 src v /\ has_room g0 r0 src v ks kv /\ candidates r0 src ks kv l /\ most_similar ratio g0 src l w q /\
      rank_at r0 w kw /\ rank_at r src kw /\ forall x k, x <> src -> (rank_at r x k <-> rank_at r0 x k).
  Proof.
    intros c o g0 r0 g r w src q G Hs H0 H1 EN. destruct (near_collate_run c o g0 r0 g r Hs H0 H1) as [order [rl [_ [R RK]]]].
    destruct (near_spec cc topo ratio TO c o g0 r0 G Hs H0) as [g' [r' [W [rk [m [l0 [N1 [N2 [N3 [N4 [N5 [N6 [N7 N8]]]]]]]]]]]]].
    rewrite H1 in N1. injection N1 as <- <-.
    destruct (one_move _ _ _ _ _ R w src q (gi_near _ _ N4) EN) as [v [ks [kv [l [A [B [C [D E]]]]]]]]. cbn [fst snd] in *.
    assert (He : edge g0 src v).
    { unfold edges_into in A. apply in_flat_map in A as [x [_ A]]. apply filter_In in A as [A _]. exact A. }
    assert (Hs0 : In src (vertices g0)) by (apply (graph_edge_verts g0 W src v N4 He)).
    assert (Hw : In w (vertices g0) /\ w <> src).
    { pose proof D as D'. destruct D as [l1 [l2 [El [S1 _]]]]. split.
      - destruct S1 as [ax [bx [_ [_ [_ [Q _]]]]]]. apply (dget_In _ nat_eqb_ok) in Q. apply (in_map fst) in Q. exact Q.
      - destruct C as [ls [_ C]]. assert (I : In w l) by (rewrite El; apply in_or_app; right; left; reflexivity). rewrite C in I.
        apply filter_In in I as [_ I]. apply negb_true_iff, Nat.eqb_neq in I. exact I. }
    destruct Hw as [Hw NE]. rewrite E in RK.
    destruct (one_near_rank topo g0 W rk m l0 w src q r TO N4 N5 N6 Hs0 Hw NE RK) as [X Y].
    exists v, ks, kv, (rk w), l. subst r0. repeat (split; [first [assumption|apply (by_vertex_get g0); assumption]|]). exact Y.
  Qed.

  (** Nothing moves: nothing had room, and the ranks are the same. *)
  Theorem near_collate_none : forall c o g0 r0 g r, good_sigla c -> o_segmentation o = false ->
    collate_graph cc topo ratio c (set_near o false) = Ok (g0, r0) -> collate_graph cc topo ratio c (set_near o true) = Ok (g, r) ->
    g_near g = [] -> (forall src v ks kv, edge g0 src v -> ~ has_room g0 r0 src v ks kv) /\ g = g0 /\ r = r0.
  Proof.
    intros c o g0 r0 g r G Hs H0 H1 EN. destruct (near_collate_run c o g0 r0 g r Hs H0 H1) as [order [rl [T [R RK]]]].
    destruct (near_spec cc topo ratio TO c o g0 r0 G Hs H0) as [g' [r' [W [rk [m [l0 [N1 [N2 [N3 [N4 [N5 [N6 [N7 N8]]]]]]]]]]]]].
    destruct (no_move _ _ _ _ _ R EN) as [A B]. injection A as -> ->. cbn [fst snd] in B.
    assert (W0 : graph_of (without_near g0) W) by (pose proof (gi_near _ _ N4) as N; destruct g0 as [a b n d]; cbn in N; subst n; exact N4).
    destruct (topo_near topo g0 W TO W0) as [order' [T1 T2]]. rewrite T in T1. injection T1 as <-.
    split; [|split; [reflexivity|]].
    - intros src v ks kv He. apply B. unfold edges_into. apply in_flat_map. exists v. split.
      + apply in_rev. rewrite rev_involutive. apply (Permutation_in _ (Permutation_sym T2)). apply (graph_edge_verts g0 W src v N4 He).
      + apply filter_In. split; [exact He|]. cbn [snd]. apply Nat.eqb_refl.
    - unfold collate_graph in H0. cbn [set_near o_astar o_filter o_transp o_near o_segmentation] in H0.
      apply bind_ok in H0 as [[ti g1] [A0 H0]]. apply bind_ok in H0 as [r1 [R1 H0]]. cbn [bind] in H0. rewrite Hs in H0. injection H0 as -> ->. congruence.
  Qed.
End Best.
