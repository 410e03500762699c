(** The segments of the reference alignment and the joined graph. *)
From Verif Require Import Py TokenModel SuffixModel IndexModel GraphModel AlignModel TableModel NearModel ExportModel CollateModel
  Lib GraphSpec GraphProof MergeProof RankProof AlignProof AlignerProof CollateProof TableSpec TableProof CollateSpec JoinProof TopoProof ResultProof StageProof NearProof NearTwoProof
  IdentProof DrawProof FilterProof WalkSpec PairSpec ChosenSpec PairProof GrowProof CommonProof SegSpec SegProof SegTableSpec SegTableProof ProgSpec SegProgSpec ProgProof.
From Coq Require Import Permutation Relations QArith Sorted.
Open Scope list_scope.
Open Scope nat_scope.

(** ** Ranks and places of an alignment whose nodes need not all be on threads *)
Definition on_one (A : alignment) (n : nat) : Prop := exists th, In th (threads A) /\ In n th.
Record laid (A : alignment) (g : graph) (W : list wpath) : Prop := {
  la_graph : graph_of g W;
  la_some : W <> [];
  la_threads : map (fun p => map fst (snd p)) W = map (map vx_of) (threads A);
  la_bound : forall th n, In th (threads A) -> In n th -> n < length (node_words A)
}.

Section Ranks.
  Variables (A : alignment) (g : graph) (W : list wpath) (rk : vid -> nat) (mm : nat) (l : list vid).
  Hypothesis TD : laid A g W.
  Hypothesis RO : rank_ok g rk mm l.
  Let GI := la_graph _ _ _ TD.
  Let NE := la_some _ _ _ TD.

  Lemma wp_thread' : forall wp, In wp W -> exists th, In th (threads A) /\ map fst (snd wp) = map vx_of th.
  Proof.
    intros wp H. apply (in_map (fun p => map fst (snd p))) in H. rewrite (la_threads _ _ _ TD) in H. apply in_map_iff in H as [th [E H]]. exists th. auto.
  Qed.
  Lemma thread_wp' : forall th, In th (threads A) -> exists wp, In wp W /\ map fst (snd wp) = map vx_of th.
  Proof.
    intros th H. apply (in_map (map vx_of)) in H. rewrite <- (la_threads _ _ _ TD) in H. apply in_map_iff in H as [wp [E H]]. exists wp. auto.
  Qed.
  Lemma node_vertex' : forall n, In (vx_of n) (vertices g) <-> on_one A n.
  Proof.
    intros n. split.
    - intros H. destruct (gi_cover _ _ GI _ H) as [E|[E|[p [ts [Hp Hi]]]]]; [discriminate E|discriminate E|]. destruct (wp_thread' p Hp) as [th [T1 T2]].
      exists th. split; [exact T1|]. apply (in_map fst) in Hi. cbn [fst] in Hi. rewrite T2 in Hi. apply in_map_iff in Hi as [n' [E I]]. apply vx_of_inj in E. congruence.
    - intros H. destruct H as [th [T1 T2]]. destruct (thread_wp' th T1) as [wp [P1 P2]]. apply (in_map vx_of) in T2. rewrite <- P2 in T2.
      apply in_map_iff in T2 as [[v ts] [E T2]]. cbn [fst] in E. subst v. apply (gi_on _ _ GI wp _ ts P1 T2).
  Qed.
  Lemma vertex_node' : forall v, In v (vertices g) -> v = v_start \/ v = v_end \/ exists n, v = vx_of n /\ on_one A n.
  Proof.
    intros v H. destruct v as [|[|n]]; [left; reflexivity|right; left; reflexivity|]. right. right. exists n. split; [reflexivity|]. apply node_vertex'. exact H.
  Qed.
  Lemma chain_of' : forall wp th, map fst (snd wp) = map vx_of th -> chain wp = v_start :: map vx_of th ++ [v_end].
  Proof. intros wp th E. unfold chain. rewrite E. reflexivity. Qed.
  Lemma edge_node' : forall m n, edge g (vx_of m) (vx_of n) <-> In (m, n) (followed A).
  Proof.
    intros m n. rewrite (graph_edge_path g W _ _ GI). unfold followed. rewrite in_flat_map. split.
    - intros [p [P Q]]. destruct (wp_thread' p P) as [th [T1 T2]]. exists th. split; [exact T1|]. rewrite (chain_of' p th T2) in Q. apply (proj1 (thread_edge th m n)) in Q. exact Q.
    - intros [th [T Q]]. destruct (thread_wp' th T) as [p [P1 P2]]. exists p. split; [exact P1|]. rewrite (chain_of' p th P2). apply thread_edge. exact Q.
  Qed.
  Lemma edge_in' : forall u v, edge g u v -> In u (vertices g) /\ In v (vertices g).
  Proof.
    intros u v H. apply (graph_edge_path g W _ _ GI) in H as [p [P Q]].
    assert (C : forall x, In x (chain p) -> In x (vertices g)).
    { intros x [<-|X]; [apply (start_In _ _ GI)|]. apply in_app_or in X as [X|[<-|[]]]; [|apply (end_In _ _ GI)].
      apply in_map_iff in X as [[v' ts] [<- X]]. apply (gi_on _ _ GI p v' ts P X). }
    apply pairs_nth_inv in Q as [i [Q1 Q2]]. apply nth_error_In in Q1, Q2. auto.
  Qed.
  Lemma edge_up' : forall v k, In v (vertices g) -> rk v = S k -> exists u, edge g u v /\ rk u = k.
  Proof. intros v k H E. rewrite (ro_eq _ _ _ _ RO v H) in E. apply rank_of_pos in E. exact E. Qed.
  Lemma rk_start' : rk v_start = 0. Proof. exact (rank_start g W rk mm l GI RO). Qed.
  Lemma rk_node' : forall n, on_one A n -> 1 <= rk (vx_of n) < rk v_end.
  Proof.
    intros n H. split.
    - destruct (rk (vx_of n)) eqn:E; [|lia]. apply (rank_zero g W rk mm l GI RO NE) in E; [discriminate E|]. apply node_vertex'. exact H.
    - destruct H as [th [T1 T2]]. destruct (thread_wp' th T1) as [p [P1 P2]].
      apply In_nth_error in T2 as [i T2]. apply (chain_mono rk (chain p)) with (j := S (length th)) (i := S i).
      + intros u v Q. apply (ro_edge _ _ _ _ RO). apply (graph_edge_path g W _ _ GI). exists p. auto.
      + assert (i < length th) by (apply nth_error_Some; congruence). lia.
      + rewrite (chain_of' p th P2). cbn [nth_error]. rewrite nth_error_app1 by (rewrite map_length; apply nth_error_Some; congruence).
        rewrite nth_error_map, T2. reflexivity.
      + rewrite (chain_of' p th P2). cbn [nth_error]. rewrite nth_error_app2 by (rewrite map_length; lia). rewrite map_length, Nat.sub_diag. reflexivity.
  Qed.

  Lemma place_rank' : forall f n, on_one A n -> rk (vx_of n) <= f -> place_of f (followed A) n = rk (vx_of n).
  Proof.
    induction f as [|f IH]; intros n Hn L; [pose proof (rk_node' n Hn); lia|]. cbn [place_of].
    destruct (rk (vx_of n)) as [|k] eqn:K; [pose proof (rk_node' n Hn); lia|]. f_equal.
    assert (PR : forall m, In (m, n) (followed A) -> on_one A m /\ rk (vx_of m) < S k).
    { intros m H. apply edge_node' in H. split; [apply node_vertex'; apply (edge_in' _ _ H)|]. rewrite <- K. apply (ro_edge _ _ _ _ RO). exact H. }
    apply Nat.le_antisymm.
    - apply list_max_bound. intros x Hx. apply in_map_iff in Hx as [[m n'] [E Hx]]. apply filter_In in Hx as [Hx Q]. cbn [fst snd] in *. apply Nat.eqb_eq in Q. subst n'.
      destruct (PR m Hx) as [P1 P2]. rewrite (IH m P1) in E by lia. lia.
    - destruct (edge_up' (vx_of n) k) as [u [E R]]; [apply node_vertex'; exact Hn|exact K|].
      destruct (vertex_node' u (proj1 (edge_in' _ _ E))) as [->|[->|[m [-> Hm]]]].
      + rewrite rk_start' in R. lia.
      + pose proof (rk_node' n Hn). pose proof (ro_edge _ _ _ _ RO _ _ E). lia.
      + apply edge_node' in E. rewrite <- R. apply list_max_in. apply in_map_iff. exists (m, n). cbn [fst]. split; [apply IH; [exact Hm|lia]|].
        apply filter_In. split; [exact E|]. cbn [snd]. apply Nat.eqb_refl.
  Qed.

  Lemma rank_le_nodes' : forall n, on_one A n -> rk (vx_of n) <= length (node_words A).
  Proof.
    intros n Hn. pose proof (rk_node' n Hn) as [R1 R2].
    assert (EX : forall k, k <= rk (vx_of n) -> exists vs, map rk vs = seq 1 k /\ incl vs (map vx_of (nodes A))).
    { induction k as [|k IH]; intros L; [exists []; split; [reflexivity|intros x []]|]. destruct IH as [vs [V1 V2]]; [lia|].
      assert (LM : S k < mm) by (pose proof (rank_end_max g W rk mm l GI RO NE); lia).
      destruct (ro_onto _ _ _ _ RO (S k) LM) as [v [Hv Rv]]. exists (vs ++ [v]). split.
      - rewrite map_app, V1, seq_S. cbn [map]. f_equal. f_equal. lia.
      - intros x Hx. apply in_app_or in Hx as [Hx|[<-|[]]]; [apply V2; exact Hx|].
        destruct (vertex_node' v Hv) as [->|[->|[m [-> Hm]]]]; [rewrite rk_start' in Rv; lia|lia|]. apply in_map. apply in_seq. destruct Hm as [th [T1 T2]]. pose proof (la_bound _ _ _ TD th m T1 T2). lia. }
    destruct (EX _ (le_n _)) as [vs [V1 V2]].
    assert (ND : NoDup vs) by (apply (NoDup_map_inv rk); rewrite V1; apply seq_NoDup).
    pose proof (NoDup_incl_length ND V2) as LN. unfold nodes in LN. rewrite map_length, seq_length in LN.
    rewrite <- (map_length rk), V1, seq_length in LN. exact LN.
  Qed.

  Theorem place_is_rank' : forall n, on_one A n -> place_in A n = rk (vx_of n).
  Proof. intros n Hn. apply place_rank'; [exact Hn|apply rank_le_nodes'; exact Hn]. Qed.

  Theorem columns_rank : columns_of A = rk v_end - 1.
  Proof.
    unfold columns_of. apply Nat.le_antisymm.
    - apply list_max_bound. intros x Hx. apply in_map_iff in Hx as [n [<- Hn]]. apply in_concat in Hn as [th [T1 T2]]. assert (O : on_one A n) by (exists th; auto).
      rewrite place_is_rank' by exact O. pose proof (rk_node' n O). lia.
    - destruct (rk v_end) as [|k] eqn:K; [lia|]. destruct (edge_up' v_end k (end_In _ _ GI) K) as [u [E R]].
      destruct (vertex_node' u (proj1 (edge_in' _ _ E))) as [->|[->|[m [-> Hm]]]].
      + rewrite rk_start' in R. lia.
      + pose proof (ro_edge _ _ _ _ RO _ _ E). lia.
      + replace (S k - 1) with (place_in A m) by (rewrite place_is_rank' by exact Hm; lia). apply list_max_in. apply in_map.
        destruct Hm as [th [T1 T2]]. apply in_concat. exists th. auto.
  Qed.
End Ranks.

Section Table.
  Variables (A : alignment) (g : graph) (W : list wpath) (rk : vid -> nat) (m : nat) (l : list vid).
  Hypothesis TD : laid A g W.
  Hypothesis RO : rank_ok g rk m l.
  Let GI := la_graph _ _ _ TD.
  Let NW := la_some _ _ _ TD.

  Lemma any_ranks' : forall k rvs, nth_error (table_ranks rk m l) k = Some rvs -> fst rvs = S k /\ In rvs (ranks_table rk m l).
  Proof.
    intros k [r vs] H.
    destruct (placed_ranks g W rk m l (ranking_for rk m l) GI NW RO (base_placed g W rk m l GI NW RO rk m l RO)) as [B _].
    split; [|apply nth_error_In in H; unfold table_ranks in H; apply filter_In in H; tauto].
    apply (map_nth_error fst) in H. unfold table_ranks, ranks_table in H. rewrite B in H. cbn [fst] in *.
    assert (L : k < m - 2) by (rewrite <- (seq_length (m - 2) 1); apply nth_error_Some; congruence). rewrite nth_error_seq in H by assumption. injection H as <-. reflexivity.
  Qed.
  Lemma any_ranks_length' : length (table_ranks rk m l) = columns_of A.
  Proof.
    destruct (placed_ranks g W rk m l (ranking_for rk m l) GI NW RO (base_placed g W rk m l GI NW RO rk m l RO)) as [B _].
    rewrite (columns_rank A g W rk m l TD RO).
    unfold table_ranks, ranks_table. rewrite <- (map_length fst), B, seq_length. pose proof (rank_end_max g W rk m l GI RO NW). lia.
  Qed.
  Lemma any_cell' : forall p r vs, In p W -> In (r, vs) (ranks_table rk m l) ->
    (forall v ts, In (v, ts) (snd p) -> rk v = r -> dget str_eqb (fst p) (cells_of W vs) = Some ts) /\
    ((forall v ts, In (v, ts) (snd p) -> rk v <> r) -> dget str_eqb (fst p) (cells_of W vs) = None).
  Proof.
    intros p r vs Hp Hr. destruct (ranks_vs g W rk m l GI RO r vs Hr) as [NV V]. split.
    - intros v ts Hi R. destruct (cell_of g W rk m l GI p r vs Hp Hr) as [D|[v' [ts' [B1 [B D]]]]].
      + exfalso. assert (Hv : In v vs) by (apply V; split; [apply (gi_on _ _ GI p v ts Hp Hi)|assumption]).
        assert (K : In (fst p) (map fst (cells_of W vs))).
        { apply in_map_iff. exists (fst p, ts). split; [reflexivity|]. apply in_flat_map. exists v. split; [assumption|]. apply tokens_on_In. exists p.
          split; [assumption|]. split; [reflexivity|]. apply (In_dget _ nat_eqb_ok); [apply (path_uniq g W GI p Hp)|assumption]. }
        destruct (dget_Some_key _ str_eqb_ok _ _ K) as [x E]. congruence.
      + rewrite D. apply V in B1 as [_ B1]. destruct (same_rank W rk (path_sorted g W rk m l GI RO) p v' ts' v ts Hp B Hi) as [_ ->]; [congruence|reflexivity].
    - intros N. destruct (cell_of g W rk m l GI p r vs Hp Hr) as [D|[v' [ts' [B1 [B D]]]]]; [assumption|]. exfalso. apply V in B1 as [_ B1]. apply (N v' ts' B B1).
  Qed.
  Lemma thread_node' : forall th n, In th (threads A) -> In n th -> on_one A n.
  Proof. intros th n T I. exists th. auto. Qed.
  Lemma places_up' : forall th i j n n', In th (threads A) -> i < j -> nth_error th i = Some n -> nth_error th j = Some n' -> place_in A n < place_in A n'.
  Proof.
    intros th i j n n' T L Hi Hj. destruct (thread_wp' A g W TD th T) as [p [P1 P2]].
    rewrite (place_is_rank' A g W rk m l TD RO n) by (apply (thread_node' th n T); apply nth_error_In in Hi; exact Hi).
    rewrite (place_is_rank' A g W rk m l TD RO n') by (apply (thread_node' th n' T); apply nth_error_In in Hj; exact Hj).
    apply (chain_mono rk (chain p)) with (i := S i) (j := S j); [|lia| |].
    - intros u v Q. apply (ro_edge _ _ _ _ RO). apply (graph_edge_path g W _ _ GI). exists p. auto.
    - rewrite (chain_of' p th P2). cbn [nth_error]. rewrite nth_error_app1 by (rewrite map_length; apply nth_error_Some; congruence). rewrite nth_error_map, Hi. reflexivity.
    - rewrite (chain_of' p th P2). cbn [nth_error]. rewrite nth_error_app1 by (rewrite map_length; apply nth_error_Some; congruence). rewrite nth_error_map, Hj. reflexivity.
  Qed.

  Lemma cell_column' : forall wp th k vs, In wp W -> In th (threads A) -> map fst (snd wp) = map vx_of th -> In (S k, vs) (ranks_table rk m l) ->
    cell_is wp (at_column A th (S k)) (dget str_eqb (fst wp) (cells_of W vs)).
  Proof.
    intros wp th k vs Hw Ht E Hr. destruct (any_cell' wp (S k) vs Hw Hr) as [V1 V2].
    assert (NT : forall i v ts, nth_error (snd wp) i = Some (v, ts) -> exists n, nth_error th i = Some n /\ v = vx_of n).
    { intros i v ts Q. apply (map_nth_error fst) in Q. rewrite E in Q. apply nth_map in Q as [n [Q1 Q2]]. cbn [fst] in Q2. eauto. }
    unfold at_column. destruct (List.find _ (seq 0 (length th))) as [i|] eqn:F; cbn [cell_is].
    - apply find_some in F as [F1 F2]. apply in_seq in F1. destruct (nth_error th i) as [n|] eqn:T; [|discriminate F2]. apply Nat.eqb_eq in F2.
      assert (Q : nth_error (map fst (snd wp)) i = Some (vx_of n)) by (rewrite E, nth_error_map, T; reflexivity).
      apply nth_map in Q as [[v ts] [Q1 Q2]]. cbn [fst] in Q2. subst v. exists (vx_of n), ts. split; [exact Q1|]. apply (V1 (vx_of n)); [apply nth_error_In in Q1; exact Q1|].
      rewrite <- (place_is_rank' A g W rk m l TD RO n); [exact F2|]. apply (thread_node' th n Ht). apply nth_error_In in T. exact T.
    - apply V2. intros v ts Hi R. apply In_nth_error in Hi as [i Hi]. destruct (NT i v ts Hi) as [n [T ->]].
      assert (Li : i < length th) by (apply nth_error_Some; congruence). assert (IS : In i (seq 0 (length th))) by (apply in_seq; lia).
      pose proof (find_none _ _ F i IS) as FN. cbn beta in FN. rewrite T in FN. apply Nat.eqb_neq in FN. apply FN.
      rewrite (place_is_rank' A g W rk m l TD RO n); [exact R|]. apply (thread_node' th n Ht). apply nth_error_In in T. exact T.
  Qed.

  Lemma column_variant' : forall k vs, In (S k, vs) (ranks_table rk m l) ->
    c_variant (mkcol W (length W) (S k, vs)) = false <-> exists n, place_in A n = S k /\ forall th, In th (threads A) -> In n th.
  Proof.
    intros k vs Hr. destruct (ranks_vs g W rk m l GI RO (S k) vs Hr) as [NV V]. cbn [c_variant mkcol snd]. split.
    - intros Q. apply orb_false_iff in Q as [Q1 Q2]. apply Nat.ltb_ge in Q1. apply negb_false_iff in Q2. apply Nat.eqb_eq in Q2.
      destruct vs as [|v [|? ?]]; [|clear Q1|cbn [length] in Q1; lia].
      { exfalso. unfold cells_of in Q2. cbn [flat_map length] in Q2. destruct W; [apply NW; reflexivity|discriminate Q2]. }
      unfold cells_of in Q2. cbn [flat_map] in Q2. rewrite app_nil_r in Q2. pose proof (proj1 (proj2 (tokens_full W v)) Q2) as Q3. clear Q2. rename Q3 into Q2. destruct (proj1 (V v) (or_introl eq_refl)) as [V1 V2].
      destruct (vertex_node' A g W TD v V1) as [->|[->|[n [-> Hn]]]].
      + rewrite (rk_start' A g W rk m l TD RO) in V2. discriminate V2.
      + exfalso. destruct W as [|p W0] eqn:EW; [apply NW; reflexivity|]. pose proof (Q2 p (or_introl eq_refl)) as I.
        pose proof (gi_simple _ _ GI p (or_introl eq_refl)) as NC. unfold chain in NC. inversion NC as [|? ? _ NC']; subst. apply NoDup_app_iff in NC' as [_ [_ NC']].
        apply (NC' v_end I). left. reflexivity.
      + exists n. split; [rewrite (place_is_rank' A g W rk m l TD RO n Hn); exact V2|]. intros th T. destruct (thread_wp' A g W TD th T) as [wp [P1 P2]].
        specialize (Q2 wp P1). rewrite P2 in Q2. apply in_map_iff in Q2 as [n' [E I]]. apply vx_of_inj in E. subst n'. exact I.
    - intros [n [R AT]].
      assert (Hn : on_one A n).
      { destruct W as [|p W0] eqn:EW; [exfalso; apply NW; reflexivity|]. destruct (wp_thread' A g _ TD p (or_introl eq_refl)) as [th [T _]]. rewrite <- EW in *. apply (thread_node' th n T (AT th T)). }
      rewrite (place_is_rank' A g W rk m l TD RO n Hn) in R.
      assert (ALL : forall p, In p W -> In (vx_of n) (map fst (snd p))).
      { intros p Hp. destruct (wp_thread' A g W TD p Hp) as [th [T ->]]. apply in_map. apply AT. exact T. }
      assert (U : forall u, In u vs -> u = vx_of n).
      { intros u Hu. apply V in Hu as [U1 U2]. destruct (vertex_node' A g W TD u U1) as [->|[->|[n' [-> Hn']]]].
        - rewrite (rk_start' A g W rk m l TD RO) in U2. discriminate U2.
        - pose proof (rk_node' A g W rk m l TD RO n Hn). lia.
        - destruct Hn' as [th [T I]]. destruct (thread_wp' A g W TD th T) as [p [P1 P2]]. apply (in_map vx_of) in I. rewrite <- P2 in I. apply in_map_iff in I as [[v' ts'] [E' I']].
          specialize (ALL p P1). apply in_map_iff in ALL as [[v ts] [E I2]]. cbn [fst] in *. subst v v'.
          destruct (same_rank W rk (path_sorted g W rk m l GI RO) p (vx_of n') ts' (vx_of n) ts P1 I' I2) as [Z _]; [congruence|exact Z]. }
      assert (Hv : In (vx_of n) vs) by (apply V; split; [apply (node_vertex' A g W TD n); exact Hn|exact R]).
      assert (VS : vs = [vx_of n]).
      { destruct vs as [|u1 [|u2 r]]; [destruct Hv|f_equal; apply U; left; reflexivity|]. exfalso. rewrite (U u1), (U u2) in NV by (cbn; auto). inversion NV as [|? ? N _]. apply N. left. reflexivity. }
      subst vs. unfold cells_of. cbn [flat_map length Nat.ltb Nat.leb orb]. rewrite app_nil_r. rewrite (proj2 (proj2 (tokens_full W (vx_of n))) ALL), Nat.eqb_refl. reflexivity.
  Qed.
End Table.

(** ** Segments *)
Lemma segments_concat : forall A th, concat (segments A th) = th /\ forall s, In s (segments A th) -> s <> [].
Proof.
  intros A. induction th as [|n th [I1 I2]]; [split; [reflexivity|intros s []]|]. cbn [segments].
  destruct (segments A th) as [|[|m s] l] eqn:E.
  - cbn in I1. subst th. split; [reflexivity|]. intros s [<-|[]]. discriminate.
  - exfalso. apply (I2 []); [left; reflexivity|reflexivity].
  - destruct (together A n m); cbn [concat app] in *.
    + split; [f_equal; exact I1|]. intros s' [<-|H]; [discriminate|]. apply I2. right. exact H.
    + split; [f_equal; exact I1|]. intros s' [<-|H]; [discriminate|]. apply I2. exact H.
Qed.

Lemma segments_unique : forall A ss, (forall s, In s ss -> s <> []) -> (forall s a b, In s ss -> In (a, b) (pairs s) -> together A a b = true) ->
  (forall s s', In (s, s') (pairs ss) -> together A (last s 0) (hd 0 s') = false) -> segments A (concat ss) = ss.
Proof.
  intros A. induction ss as [|s ss IH]; intros N I B; [reflexivity|]. cbn [concat].
  assert (IH' : segments A (concat ss) = ss).
  { apply IH; [intros s' H; apply N; right; exact H|intros s' a b H; apply I; right; exact H|].
    intros s1 s2 H. apply B. destruct ss as [|s0 ss]; [destruct H|]. cbn [pairs]. right. exact H. }
  assert (NS : s <> []) by (apply N; left; reflexivity). assert (I' : forall a b, In (a, b) (pairs s) -> together A a b = true) by (intros a b; apply I; left; reflexivity).
  assert (B' : match ss with [] => True | s' :: _ => together A (last s 0) (hd 0 s') = false end).
  { destruct ss as [|s' ss]; [exact Logic.I|]. apply B. left. reflexivity. }
  assert (N' : forall s', In s' ss -> s' <> []) by (intros s' H; apply N; right; exact H).
  clear - IH' NS I' B' N'. induction s as [|n s IHs]; [congruence|]. destruct s as [|m s].
  - cbn [app segments]. rewrite IH'. destruct ss as [|s' ss]; [reflexivity|]. destruct s' as [|m s']; [exfalso; apply (N' []); [left; reflexivity|reflexivity]|].
    cbn [last hd] in B'. rewrite B'. reflexivity.
  - change ((n :: m :: s) ++ concat ss) with (n :: (m :: s) ++ concat ss). cbn [segments].
    assert (E : segments A ((m :: s) ++ concat ss) = (m :: s) :: ss).
    { apply IHs; [discriminate|intros a b H; apply I'; cbn [pairs]; right; exact H|]. destruct ss; [exact Logic.I|]. exact B'. }
    cbn [segments] in E. cbn [app] in *. rewrite E. rewrite (I' n m); [reflexivity|]. left. reflexivity.
Qed.

Definition enc_l (x : option nat) : vid := match x with Some n => vx_of n | None => v_start end.
Definition enc_r (x : option nat) : vid := match x with Some n => vx_of n | None => v_end end.
Lemma enc_l_node : forall m x, enc_l x = vx_of m <-> is_node m x = true.
Proof. intros m [n|]; cbn [enc_l is_node]; [rewrite Nat.eqb_eq; unfold vx_of; lia|split; discriminate]. Qed.
Lemma enc_r_node : forall m x, enc_r x = vx_of m <-> is_node m x = true.
Proof. intros m [n|]; cbn [enc_r is_node]; [rewrite Nat.eqb_eq; unfold vx_of; lia|split; discriminate]. Qed.
Lemma steps_chain : forall th x, pairs (enc_l x :: map vx_of th ++ [v_end]) = map (fun e => (enc_l (fst e), enc_r (snd e))) (pairs (x :: map Some th ++ [None])).
Proof.
  induction th as [|n th IH]; intros x; [reflexivity|]. specialize (IH (Some n)). unfold pairs in *. cbn [map app tl combine fst snd enc_l enc_r] in *. f_equal. exact IH.
Qed.

Section Glue.
  Variables (A : alignment) (g : graph) (W : list wpath).
  Hypothesis LD : laid A g W.
  Let GI := la_graph _ _ _ LD.

  Lemma edge_step : forall a b, edge g a b <-> exists th e, In th (threads A) /\ In e (thread_steps th) /\ a = enc_l (fst e) /\ b = enc_r (snd e).
  Proof.
    intros a b. rewrite (graph_edge_path g W _ _ GI). split.
    - intros [p [P Q]]. destruct (wp_thread' A g W LD p P) as [th [T1 T2]]. rewrite (chain_of' p th T2) in Q. change v_start with (enc_l None) in Q. rewrite steps_chain in Q.
      apply in_map_iff in Q as [e [E Q]]. injection E as <- <-. exists th, e. auto.
    - intros [th [e [T [Q [-> ->]]]]]. destruct (thread_wp' A g W LD th T) as [p [P1 P2]]. exists p. split; [exact P1|]. rewrite (chain_of' p th P2). change v_start with (enc_l None).
      rewrite steps_chain. apply in_map_iff. exists e. auto.
  Qed.

  Lemma together_joinable : forall m n, edge g (vx_of m) (vx_of n) -> (together A m n = true <-> joinable g (vx_of m) (vx_of n)).
  Proof.
    intros m n E0. unfold together. rewrite forallb_forall. split.
    - intros H. assert (H' : forall th e, In th (threads A) -> In e (thread_steps th) -> is_node m (fst e) = is_node n (snd e)).
      { intros th e T Q. specialize (H th T). rewrite forallb_forall in H. apply Bool.eqb_prop. apply (H e Q). }
      split; [discriminate|]. split; [discriminate|]. split.
      + intros w. split; [|intros ->; exact E0]. intros E. apply edge_step in E as [th [e [T [Q [E1 ->]]]]]. symmetry in E1. apply enc_l_node in E1. apply enc_r_node. rewrite <- (H' th e T Q). exact E1.
      + intros u. split; [|intros ->; exact E0]. intros E. apply edge_step in E as [th [e [T [Q [-> E1]]]]]. symmetry in E1. apply enc_r_node in E1. apply enc_l_node. rewrite (H' th e T Q). exact E1.
    - intros [_ [_ [J1 J2]]] th T. apply forallb_forall. intros e Q. apply Bool.eqb_true_iff. apply Bool.eq_true_iff_eq. split; intros E.
      + apply enc_l_node in E. apply enc_r_node. apply J1. rewrite <- E. apply edge_step. exists th, e. auto.
      + apply enc_r_node in E. apply enc_l_node. apply J2. rewrite <- E. apply edge_step. exists th, e. auto.
  Qed.
End Glue.

Section JoinedUp.
  Variables (cc : cclass) (A : alignment) (g0 : graph) (W0 : list wpath) (g : graph) (W : list wpath) (part : vid -> list vid).
  Hypothesis LD : laid A g0 W0.
  Hypothesis J : joined cc g0 W0 g W part.
  Hypothesis MAX : forall u c, In u (vertices g) -> ~ joinable g u c.
  Variables (rk : vid -> nat) (m : nat) (l : list vid).
  Hypothesis RO : rank_ok g0 rk m l.
  Let GI0 := la_graph _ _ _ LD.
  Let GI := jo_graph _ _ _ _ _ _ J.

  Lemma apart : forall v w, edge g v w -> v <> v_start -> w <> v_end -> ~ joinable g0 (last (part v) v) w.
  Proof.
    intros v w E NS NE [_ [_ [J1 J2]]]. destruct (graph_edge_verts g W v w GI E) as [Hv Hw]. apply (MAX v w Hv). split; [exact NS|]. split; [exact NE|]. split.
    - intros x. rewrite (jo_edges _ _ _ _ _ _ J v x Hv). apply J1.
    - intros u. split; [|intros ->; exact E]. intros E'. destruct (graph_edge_verts g W u w GI E') as [Hu _].
      apply (jo_edges _ _ _ _ _ _ J u w Hu) in E'. apply J2 in E'.
      destruct (jo_head _ _ _ _ _ _ J u Hu) as [ru Eu]. destruct (jo_head _ _ _ _ _ _ J v Hv) as [rv Ev].
      assert (NU : part u <> []) by (rewrite Eu; discriminate). assert (NV : part v <> []) by (rewrite Ev; discriminate).
      pose proof (last_nth (part u) u NU) as LU. pose proof (last_nth (part v) v NV) as LV. rewrite E' in LU.
      apply (part_disjoint cc g0 W0 g W part J rk m l RO u v _ _ _ Hu Hv LU LV).
  Qed.

  Lemma thread_parts : forall p0 p th, In p W -> In p0 W0 -> map fst (snd p0) = map vx_of th -> In th (threads A) -> snd p0 = unfold_path part (snd p) ->
    (forall v ts, In (v, ts) (snd p) -> length ts = length (part v)) -> map (map vx_of) (segments A th) = map part (map fst (snd p)).
  Proof.
    intros p0 p th Hp Hp0 ET IT UF LE. set (V := map fst (snd p)).
    assert (FM : flat_map part V = map vx_of th) by (rewrite <- ET, UF; symmetry; apply unfold_parts; exact LE).
    assert (IV : forall v, In v V -> In v (vertices g)).
    { intros v Hv. apply in_map_iff in Hv as [[v' ts] [<- Hv]]. apply (gi_on _ _ GI p v' ts Hp Hv). }
    assert (NP : forall v, In v V -> exists r, part v = v :: r) by (intros v Hv; apply (jo_head _ _ _ _ _ _ J); apply IV; exact Hv).
    assert (VX : forall v a, In v V -> In a (part v) -> exists n, a = vx_of n).
    { intros v a Hv Ha. assert (Q : In a (flat_map part V)) by (apply in_flat_map; exists v; auto). rewrite FM in Q. apply in_map_iff in Q as [n [<- _]]. eauto. }
    set (un := fun v : vid => v - 2). assert (UN : forall n, un (vx_of n) = n) by (intros n; unfold un, vx_of; lia).
    set (ss := map (fun v => map un (part v)) V).
    assert (RT : forall v, In v V -> map vx_of (map un (part v)) = part v).
    { intros v Hv. rewrite map_map. rewrite <- (map_id (part v)) at 2. apply map_ext_in. intros a Ha. destruct (VX v a Hv Ha) as [n ->]. rewrite UN. reflexivity. }
    assert (CS : concat ss = th).
    { unfold ss. rewrite <- flat_map_concat_map. replace th with (map un (map vx_of th)) by (rewrite map_map; rewrite <- (map_id th) at 2; apply map_ext; exact UN).
      rewrite <- FM. clear. induction V as [|v V IH]; [reflexivity|]. cbn [flat_map]. rewrite map_app, IH. reflexivity. }
    assert (SS : segments A th = ss).
    { rewrite <- CS at 1. apply segments_unique.
      - intros s Hs. apply in_map_iff in Hs as [v [<- Hv]]. destruct (NP v Hv) as [r ->]. discriminate.
      - intros s a b Hs Hab. apply in_map_iff in Hs as [v [<- Hv]]. pose proof (RT v Hv) as R.
        assert (Q : In (vx_of a, vx_of b) (pairs (part v))).
        { rewrite <- R. apply pairs_nth_inv in Hab as [i [B1 B2]]. apply (pairs_nth _ i); rewrite nth_error_map; [rewrite B1|rewrite B2]; reflexivity. }
        pose proof (jo_links _ _ _ _ _ _ J v _ _ (IV v Hv) Q) as JN. apply (together_joinable A g0 W0 LD); [|exact JN]. destruct JN as [_ [_ [JN _]]]. apply JN. reflexivity.
      - intros s s' H. unfold ss in H. apply pairs_nth_inv in H as [i [B1 B2]]. apply nth_map in B1 as [v [B1 <-]]. apply nth_map in B2 as [w [B2 <-]].
        assert (Hv : In v V) by (apply nth_error_In in B1; exact B1). assert (Hw : In w V) by (apply nth_error_In in B2; exact B2).
        assert (E : edge g v w).
        { apply (graph_edge_path g W _ _ GI). exists p. split; [exact Hp|]. unfold chain. fold V. apply (pairs_nth _ (S i));
            [change (nth_error (V ++ [v_end]) i = Some v)|change (nth_error (V ++ [v_end]) (S i) = Some w)]; (rewrite nth_error_app1; [assumption|apply nth_error_Some; congruence]). }
        destruct (NP v Hv) as [rv Ev]. destruct (NP w Hw) as [rw Ew].
        assert (LS : vx_of (last (map un (part v)) 0) = last (part v) v).
        { destruct (exists_last (l := part v)) as [q [z Ez]]; [rewrite Ev; discriminate|]. assert (Iz : In z (part v)) by (rewrite Ez; apply in_or_app; right; left; reflexivity).
          rewrite Ez, map_app. cbn [map]. rewrite !last_last. destruct (VX v z Hv Iz) as [n ->]. rewrite UN. reflexivity. }
        assert (HW : vx_of (hd 0 (map un (part w))) = w).
        { rewrite Ew. cbn [map hd]. destruct (VX w w Hw) as [n ->]; [rewrite Ew; left; reflexivity|]. rewrite UN. reflexivity. }
        destruct (together A (last (map un (part v)) 0) (hd 0 (map un (part w)))) eqn:TG; [|reflexivity]. exfalso.
        assert (E0 : edge g0 (last (part v) v) w) by (apply (jo_edges _ _ _ _ _ _ J v w (IV v Hv)); exact E).
        apply (together_joinable A g0 W0 LD) in TG; [|rewrite LS, HW; exact E0]. rewrite LS, HW in TG.
        apply (apart v w E); [| |exact TG].
        + destruct (VX v v Hv) as [n ->]; [rewrite Ev; left; reflexivity|discriminate].
        + destruct (VX w w Hw) as [n ->]; [rewrite Ew; left; reflexivity|discriminate]. }
    rewrite SS. unfold ss. rewrite map_map. apply map_ext_in. intros v Hv. apply RT. exact Hv.
  Qed.

  Lemma thread_heads : forall p th, In p W -> map (map vx_of) (segments A th) = map part (map fst (snd p)) -> map fst (snd p) = map vx_of (map (hd 0) (segments A th)).
  Proof.
    intros p th Hp E. assert (IV : forall v, In v (map fst (snd p)) -> exists r, part v = v :: r).
    { intros v Hv. apply in_map_iff in Hv as [[v' ts] [<- Hv]]. apply (jo_head _ _ _ _ _ _ J). apply (gi_on _ _ GI p v' ts Hp Hv). }
    revert IV E. generalize (map fst (snd p)). intros V. revert V. induction (segments A th) as [|s ss IH]; intros V IV E; destruct V as [|v V]; try discriminate; [reflexivity|].
    cbn [map] in *. injection E as E1 E2. f_equal; [|apply IH; [intros; apply IV; right; assumption|exact E2]].
    destruct (IV v (or_introl eq_refl)) as [r Ev]. rewrite Ev in E1. destruct s as [|n s]; [discriminate E1|]. cbn [map hd] in *. congruence.
  Qed.

  Lemma paths_threads : forall V0 V T, incl V0 W0 -> incl V W -> incl T (threads A) ->
    Forall2 (fun p0 p => fst p0 = fst p /\ snd p0 = unfold_path part (snd p) /\ forall v ts, In (v, ts) (snd p) -> length ts = length (part v)) V0 V ->
    map (fun p : wpath => map fst (snd p)) V0 = map (map vx_of) T ->
    map (fun p : wpath => map fst (snd p)) V = map (map vx_of) (map (fun th => map (hd 0) (segments A th)) T).
  Proof.
    induction V0 as [|p0 V0 IH]; intros V T I0 I1 I2 F E; inversion F as [|? p ? V' [F1 [F2 F3]] F']; subst; destruct T as [|th T]; try discriminate; [reflexivity|].
    cbn [map] in *. injection E as E1 E2. f_equal.
    - apply thread_heads; [apply I1; left; reflexivity|]. apply (thread_parts p0 p th); auto; [apply I1|apply I0|apply I2]; left; reflexivity.
    - apply IH; auto; [intros x Hx; apply I0|intros x Hx; apply I1|intros x Hx; apply I2]; right; exact Hx.
  Qed.

  Theorem segmented_laid : laid (segmented A) g W.
  Proof.
    constructor.
    - exact GI.
    - intros EW. pose proof (jo_paths _ _ _ _ _ _ J) as F. rewrite EW in F. inversion F as [Q|]; subst. apply (la_some _ _ _ LD). auto.
    - cbn [segmented threads]. apply (paths_threads W0 W (threads A)); try (intros x Hx; exact Hx); [exact (jo_paths _ _ _ _ _ _ J)|exact (la_threads _ _ _ LD)].
    - cbn [segmented threads node_words]. intros th' n Ht Hn. apply in_map_iff in Ht as [th [<- Ht]]. apply in_map_iff in Hn as [s [<- Hs]].
      destruct (segments_concat A th) as [C1 C2]. apply (la_bound _ _ _ LD th); [exact Ht|]. rewrite <- C1. apply in_concat. exists s. split; [exact Hs|].
      specialize (C2 s Hs). destruct s; [congruence|left; reflexivity].
  Qed.
End JoinedUp.

Lemma tied_laid : forall A g W, tied A g W -> on_threads A -> laid A g W.
Proof.
  intros A g W TD ON. constructor; [exact (td_graph _ _ _ TD)|exact (td_some _ _ _ TD)|exact (td_threads _ _ _ TD)|].
  intros th n. apply (thread_node A g W TD ON).
Qed.

Theorem seg_tied_table : forall cc topo ratio c o t A, topo_ok topo -> good_sigla c -> o_segmentation o = true -> o_near o = false ->
  collate cc topo ratio c o = Ok (OTable t) ->
  (forall ti g0, aligner_collate topo (o_filter o) (o_transp o) c = Ok (ti, g0) -> exists W, tied A g0 W /\ on_threads A /\ Forall2 held c W) ->
  let B := segmented A in
  length (threads A) = length c /\ length (t_rows t) = length c /\
  (forall th i j n n', In th (threads B) -> i < j -> nth_error th i = Some n -> nth_error th j = Some n' -> place_in B n < place_in B n') /\
  (forall k w th r, nth_error c k = Some w -> nth_error (threads A) k = Some th -> nth_error (t_rows t) k = Some r ->
    r_header r = w_sigil w /\ Forall2 (shows_all w) (map (segment_at A th) (seq 1 (columns_of B))) (r_cells r)) /\
  Forall2 (fun x col => c_variant col = false <-> exists n, place_in B n = x /\ forall th, In th (threads B) -> In n th) (seq 1 (columns_of B)) (t_columns t).
Proof.
  intros cc topo ratio c o t A TO G Hs Hn H CL B. destruct (collate_table_inv cc topo ratio _ o t H) as [g [r [H1 H2]]].
  unfold collate_graph in H1. apply bind_ok in H1 as [[ti g1] [HA H1]]. destruct (o_astar o); [discriminate|].
  rewrite Hn, Hs in H1. apply bind_ok in H1 as [r1 [HR H1]]. cbn [bind] in H1. apply bind_ok in H1 as [g2 [HJ H1]]. apply bind_ok in H1 as [r2 [HR2 H1]].
  apply ok_inj in H1. injection H1 as <- <-.
  destruct (CL ti g1 HA) as [W0 [TD [ON HE]]]. pose proof (tied_laid A g1 W0 TD ON) as LD0.
  pose proof (td_graph _ _ _ TD) as GI0. destruct (ranking_spec topo g1 _ TO GI0) as [rk0 [m0 [l0 [_ [_ RO0]]]]].
  assert (ONE : one_token W0) by (intros p v ts Hp Hi; destruct (td_single _ _ _ TD p v ts Hp Hi) as [x ->]; reflexivity).
  destruct (join_spec cc g1 _ GI0 ONE) as [g2' [W [part [HJ' [J MAX]]]]]. rewrite HJ in HJ'. apply ok_inj in HJ'. subst g2'.
  pose proof (segmented_laid cc A g1 W0 g2 W part LD0 J MAX rk0 m0 l0 RO0) as LD. fold B in LD.
  destruct (ranking_spec topo g2 _ TO (la_graph _ _ _ LD)) as [rk [m [l [_ [R RO]]]]]. rewrite R in HR2. apply ok_inj in HR2. subst r2.
  rewrite (table_spec g2 _ rk m l (la_graph _ _ _ LD) RO) in H2. apply ok_inj in H2.
  pose proof (jo_paths _ _ _ _ _ _ J) as JP.
  assert (LW0 : length W0 = length c) by (symmetry; apply (Forall2_len _ _ _ HE)).
  assert (LW : length W = length c) by (rewrite <- LW0; symmetry; apply (Forall2_len _ _ _ JP)).
  assert (LT : length (threads A) = length c).
  { rewrite <- LW0, <- (map_length (map vx_of)), <- (td_threads _ _ _ TD), map_length. reflexivity. }
  split; [exact LT|]. subst t. unfold the_table. cbn [t_rows t_columns]. rewrite !map_length. split; [reflexivity|]. split; [exact (places_up' B g2 W rk m l LD RO)|]. split.
  - intros k w th r Hw Hth Hr. rewrite !nth_error_map, Hw in Hr. cbn [option_map] in Hr. injection Hr as <-. split; [reflexivity|].
    destruct (Forall2_at_l _ _ _ _ _ HE Hw) as [wp0 [Hwp0 [ts [p [EW [LP CF]]]]]].
    destruct (Forall2_at_l _ _ _ _ _ JP Hwp0) as [wp [Hwp [F1 [F2 F3]]]].
    assert (I0 : In wp0 W0) by (apply nth_error_In in Hwp0; exact Hwp0). assert (I1 : In wp W) by (apply nth_error_In in Hwp; exact Hwp).
    assert (IT : In th (threads A)) by (apply nth_error_In in Hth; exact Hth).
    assert (ET0 : map fst (snd wp0) = map vx_of th).
    { assert (Q : nth_error (map (map vx_of) (threads A)) k = Some (map fst (snd wp0))) by (rewrite <- (td_threads _ _ _ TD); exact (map_nth_error _ _ _ Hwp0)).
      rewrite nth_error_map, Hth in Q. cbn [option_map] in Q. congruence. }
    pose proof (thread_parts cc A g1 W0 g2 W part LD0 J MAX rk0 m0 l0 RO0 wp0 wp th I1 I0 ET0 IT F2 F3) as TP.
    pose proof (thread_heads cc A g1 W0 g2 W part J wp th I1 TP) as ET.
    assert (OFF : forall x, length (flat_map part (firstn x (map fst (snd wp)))) = length (concat (firstn x (segments A th)))).
    { intros x. rewrite flat_map_concat_map, <- firstn_map, <- TP, firstn_map. clear. induction (firstn x (segments A th)) as [|s ss IH]; [reflexivity|].
      cbn [map concat]. rewrite !app_length, map_length, IH. reflexivity. }
    cbn [construct_row r_cells]. apply Forall2_pointwise; [rewrite !map_length, seq_length; symmetry; apply (any_ranks_length' B g2 W rk m l LD RO)|].
    intros j x cl Hx Hc. rewrite !nth_error_map in *. destruct (nth_error (table_ranks rk m l) j) as [[r0 vs]|] eqn:ER; [|discriminate Hc]. cbn in Hc. injection Hc as <-.
    assert (Lj : j < columns_of B) by (rewrite <- (any_ranks_length' B g2 W rk m l LD RO); apply nth_error_Some; congruence).
    rewrite nth_error_seq in Hx by exact Lj. cbn [option_map Nat.add] in Hx. injection Hx as <-.
    destruct (any_ranks' B g2 W rk m l LD RO j _ ER) as [E1 E2]. cbn [fst] in E1. subst r0.
    assert (SA : segment_at A th (S j) = range1 (fun x => length (flat_map part (firstn x (map fst (snd wp))))) (at_column B (map (hd 0) (segments A th)) (S j))).
    { unfold segment_at. fold B. destruct (at_column B _ (S j)) as [i|]; [|reflexivity]. cbn [range1]. rewrite !OFF. reflexivity. }
    rewrite SA. apply (cell_shows_all w ts p wp part _ _ LP CF).
    + rewrite <- F2, EW. reflexivity.
    + exact F3.
    + intros v l' Hi El. subst l'. pose proof (F3 v [] Hi) as L. destruct (jo_head _ _ _ _ _ _ J v (proj1 (gi_on _ _ (la_graph _ _ _ LD) wp v [] I1 Hi))) as [q Q]. rewrite Q in L. discriminate L.
    + replace (w_sigil w) with (fst wp) by (rewrite <- F1, EW; reflexivity).
      apply (cell_column' B g2 W rk m l LD RO wp _ j vs I1); [|exact ET|exact E2]. unfold B, segmented. cbn [threads]. apply in_map_iff. exists th. auto.
  - apply Forall2_pointwise; [rewrite map_length, seq_length; symmetry; apply (any_ranks_length' B g2 W rk m l LD RO)|].
    intros j x col Hx Hc. rewrite nth_error_map in Hc. destruct (nth_error (table_ranks rk m l) j) as [[r0 vs]|] eqn:ER; [|discriminate Hc]. cbn [option_map] in Hc. injection Hc as <-.
    assert (Lj : j < columns_of B) by (rewrite <- (any_ranks_length' B g2 W rk m l LD RO); apply nth_error_Some; congruence).
    rewrite nth_error_seq in Hx by exact Lj. cbn [Nat.add] in Hx. injection Hx as <-.
    destruct (any_ranks' B g2 W rk m l LD RO j _ ER) as [E1 E2]. cbn [fst] in E1. subst r0.
    rewrite <- LW. apply (column_variant' B g2 W rk m l LD RO j vs E2).
Qed.
Theorem seg_prog_table : forall cc topo ratio c o t, topo_ok topo -> good_sigla c -> o_segmentation o = true -> o_near o = false -> o_filter o = None ->
  collate cc topo ratio c o = Ok (OTable t) ->
  (forall k, S k < length c -> clear (progressive (firstn (S k) (map readings c)))) ->
  let A := progressive (map readings c) in
  let B := segmented A in
  length (threads A) = length c /\ length (t_rows t) = length c /\
  (forall th i j n n', In th (threads B) -> i < j -> nth_error th i = Some n -> nth_error th j = Some n' -> place_in B n < place_in B n') /\
  (forall k w th r, nth_error c k = Some w -> nth_error (threads A) k = Some th -> nth_error (t_rows t) k = Some r ->
    r_header r = w_sigil w /\ Forall2 (shows_all w) (map (segment_at A th) (seq 1 (columns_of B))) (r_cells r)) /\
  Forall2 (fun x col => c_variant col = false <-> exists n, place_in B n = x /\ forall th, In th (threads B) -> In n th) (seq 1 (columns_of B)) (t_columns t).
Proof.
  intros cc topo ratio c o t TO G Hs Hn Hf H CL A. apply (seg_tied_table cc topo ratio c o t A TO G Hs Hn H). intros ti g0 HA. rewrite Hf in HA. apply (prog_collate topo c _ ti g0 TO G HA CL).
Qed.

(** ** The graph *)
Theorem seg_tied_graph : forall cc topo ratio c o g A, topo_ok topo -> good_sigla c -> o_segmentation o = true -> o_near o = false ->
  collate cc topo ratio c o = Ok (OGraph g) ->
  (forall ti g0, aligner_collate topo (o_filter o) (o_transp o) c = Ok (ti, g0) -> exists W, tied A g0 W /\ on_threads A /\ Forall2 held c W) ->
  let B := segmented A in
  exists f : nat -> vid, (forall n n', f n = f n' -> n = n') /\ (forall n, f n <> v_start /\ f n <> v_end) /\
    (forall v, In v (vertices g) <-> v = v_start \/ v = v_end \/ exists n th, In th (threads B) /\ In n th /\ v = f n) /\
    (forall m n, edge g (f m) (f n) <-> In (m, n) (followed B)) /\
    length (threads A) = length c /\
    forall k w th i s, nth_error c k = Some w -> nth_error (threads A) k = Some th -> nth_error (segments A th) i = Some s ->
      exists vx, dget Nat.eqb (f (hd 0 s)) (g_verts g) = Some vx /\
        shows_all w (positions (length (concat (firstn i (segments A th)))) (length (concat (firstn (S i) (segments A th))))) (dget str_eqb (w_sigil w) (v_tokens vx)).
Proof.
  intros cc topo ratio c o g A TO G Hs Hn H CL B. destruct (collate_graph_inv cc topo ratio _ o g H) as [r H1].
  unfold collate_graph in H1. apply bind_ok in H1 as [[ti g1] [HA H1]]. destruct (o_astar o); [discriminate|].
  rewrite Hn, Hs in H1. apply bind_ok in H1 as [r1 [HR H1]]. cbn [bind] in H1. apply bind_ok in H1 as [g2 [HJ H1]]. apply bind_ok in H1 as [r2 [HR2 H1]].
  apply ok_inj in H1. injection H1 as <- <-.
  destruct (CL ti g1 HA) as [W0 [TD [ON HE]]]. pose proof (tied_laid A g1 W0 TD ON) as LD0.
  pose proof (td_graph _ _ _ TD) as GI0. destruct (ranking_spec topo g1 _ TO GI0) as [rk0 [m0 [l0 [_ [_ RO0]]]]].
  assert (ONE : one_token W0) by (intros p v ts Hp Hi; destruct (td_single _ _ _ TD p v ts Hp Hi) as [x ->]; reflexivity).
  destruct (join_spec cc g1 _ GI0 ONE) as [g2' [W [part [HJ' [J MAX]]]]]. rewrite HJ in HJ'. apply ok_inj in HJ'. subst g2'.
  pose proof (segmented_laid cc A g1 W0 g2 W part LD0 J MAX rk0 m0 l0 RO0) as LD. fold B in LD. pose proof (la_graph _ _ _ LD) as GI.
  pose proof (jo_paths _ _ _ _ _ _ J) as JP.
  assert (LW0 : length W0 = length c) by (symmetry; apply (Forall2_len _ _ _ HE)).
  exists vx_of. split; [exact vx_of_inj|]. split; [intros n; split; discriminate|]. split; [|split; [|split]].
  - intros v. split.
    + intros V. destruct (vertex_node' B g2 W LD v V) as [?|[?|[n [? [th [? ?]]]]]]; eauto 8.
    + intros [->|[->|[n [th [T [I ->]]]]]]; [apply (start_In _ _ GI)|apply (end_In _ _ GI)|apply (node_vertex' B g2 W LD n); exists th; auto].
  - intros m n. apply (edge_node' B g2 W LD).
  - rewrite <- LW0, <- (map_length (map vx_of)), <- (td_threads _ _ _ TD), map_length. reflexivity.
  - intros k w th i s Hw Hth Hsg.
    destruct (Forall2_at_l _ _ _ _ _ HE Hw) as [wp0 [Hwp0 [ts [p [EW [LP CF]]]]]].
    destruct (Forall2_at_l _ _ _ _ _ JP Hwp0) as [wp [Hwp [F1 [F2 F3]]]].
    assert (I0 : In wp0 W0) by (apply nth_error_In in Hwp0; exact Hwp0). assert (I1 : In wp W) by (apply nth_error_In in Hwp; exact Hwp).
    assert (IT : In th (threads A)) by (apply nth_error_In in Hth; exact Hth).
    assert (ET0 : map fst (snd wp0) = map vx_of th).
    { assert (Q : nth_error (map (map vx_of) (threads A)) k = Some (map fst (snd wp0))) by (rewrite <- (td_threads _ _ _ TD); exact (map_nth_error _ _ _ Hwp0)).
      rewrite nth_error_map, Hth in Q. cbn [option_map] in Q. congruence. }
    pose proof (thread_parts cc A g1 W0 g2 W part LD0 J MAX rk0 m0 l0 RO0 wp0 wp th I1 I0 ET0 IT F2 F3) as TP.
    pose proof (thread_heads cc A g1 W0 g2 W part J wp th I1 TP) as ET.
    assert (OFF : forall x, length (flat_map part (firstn x (map fst (snd wp)))) = length (concat (firstn x (segments A th)))).
    { intros x. rewrite flat_map_concat_map, <- firstn_map, <- TP, firstn_map. clear. induction (firstn x (segments A th)) as [|s ss IH]; [reflexivity|].
      cbn [map concat]. rewrite !app_length, map_length, IH. reflexivity. }
    assert (Q : nth_error (map fst (snd wp)) i = Some (vx_of (hd 0 s))) by (rewrite ET, !nth_error_map, Hsg; reflexivity).
    apply nth_map in Q as [[v tl] [Q1 Q2]]. cbn [fst] in Q2. subst v. assert (Hi : In (vx_of (hd 0 s), tl) (snd wp)) by (apply nth_error_In in Q1; exact Q1).
    destruct (gi_on _ _ GI wp _ _ I1 Hi) as [V _]. destruct (dget_Some_key _ nat_eqb_ok _ (g_verts g2) V) as [vx D]. exists vx. split; [exact D|].
    assert (DT : dget str_eqb (w_sigil w) (v_tokens vx) = Some tl).
    { apply (on_path g2 W _ vx (w_sigil w) tl GI D). exists wp. split; [exact I1|]. split; [rewrite <- F1, EW; reflexivity|exact Hi]. }
    rewrite DT, <- !OFF. apply (cell_shows_all w ts p wp part (Some i) _ LP CF).
    + rewrite <- F2, EW. reflexivity.
    + exact F3.
    + intros v l' Hi' El. subst l'. pose proof (F3 v [] Hi') as L. destruct (jo_head _ _ _ _ _ _ J v (proj1 (gi_on _ _ GI wp v [] I1 Hi'))) as [q Qq]. rewrite Qq in L. discriminate L.
    + cbn [cell_is]. exists (vx_of (hd 0 s)), tl. auto.
Qed.
Theorem seg_prog_graph : forall cc topo ratio c o g, topo_ok topo -> good_sigla c -> o_segmentation o = true -> o_near o = false -> o_filter o = None ->
  collate cc topo ratio c o = Ok (OGraph g) ->
  (forall k, S k < length c -> clear (progressive (firstn (S k) (map readings c)))) ->
  let A := progressive (map readings c) in
  let B := segmented A in
  exists f : nat -> vid, (forall n n', f n = f n' -> n = n') /\ (forall n, f n <> v_start /\ f n <> v_end) /\
    (forall v, In v (vertices g) <-> v = v_start \/ v = v_end \/ exists n th, In th (threads B) /\ In n th /\ v = f n) /\
    (forall m n, edge g (f m) (f n) <-> In (m, n) (followed B)) /\
    length (threads A) = length c /\
    forall k w th i s, nth_error c k = Some w -> nth_error (threads A) k = Some th -> nth_error (segments A th) i = Some s ->
      exists vx, dget Nat.eqb (f (hd 0 s)) (g_verts g) = Some vx /\
        shows_all w (positions (length (concat (firstn i (segments A th)))) (length (concat (firstn (S i) (segments A th))))) (dget str_eqb (w_sigil w) (v_tokens vx)).
Proof.
  intros cc topo ratio c o g TO G Hs Hn Hf H CL A. apply (seg_tied_graph cc topo ratio c o g A TO G Hs Hn H). intros ti g0 HA. rewrite Hf in HA. apply (prog_collate topo c _ ti g0 TO G HA CL).
Qed.
