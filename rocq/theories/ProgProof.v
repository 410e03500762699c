(** The stages of a collation and the alignment of ProgSpec. *)
From Verif Require Import Py TokenModel SuffixModel IndexModel GraphModel AlignModel TableModel NearModel ExportModel CollateModel
  Lib GraphSpec GraphProof MergeProof RankProof AlignProof BlockProof SuffixProof FindProof IndexProof BlockText InstProof CubeProof
  AlignerProof CollateProof TableSpec TableProof CollateSpec JoinProof TopoProof ResultProof ErrorProof FactsProof OutputProof StageProof PlainProof NearProof NearTwoProof
  WalkSpec WalkProof WalkAlign WalkStage IdentProof DrawProof FilterProof PairSpec ChosenSpec ChosenProof PairProof GrowProof CommonProof ProgSpec.
From Coq Require Import Permutation Relations QArith Sorted.
Open Scope list_scope.
Open Scope nat_scope.

(** Node number n is vertex number n + 2 of the graph. *)
Definition vx_of (n : nat) : vid := S (S n).
Lemma vx_of_inj : forall n n', vx_of n = vx_of n' -> n = n'. Proof. unfold vx_of. intros. lia. Qed.

Lemma list_max_in : forall l x, In x l -> x <= list_max l.
Proof. induction l as [|a l IH]; intros x []; cbn [list_max fold_right]; [subst; lia|]. specialize (IH x H). unfold list_max in IH. lia. Qed.
Lemma list_max_bound : forall l n, (forall x, In x l -> x <= n) -> list_max l <= n.
Proof. intros l n H. apply list_max_le. apply Forall_forall. exact H. Qed.

Lemma thread_edge : forall th m n, In (vx_of m, vx_of n) (pairs (v_start :: map vx_of th ++ [v_end])) <-> In (m, n) (pairs th).
Proof.
  intros th m n.
  assert (NT : forall j k, nth_error (map vx_of th ++ [v_end]) j = Some (vx_of k) <-> nth_error th j = Some k).
  { intros j k. destruct (lt_dec j (length th)) as [L|L].
    - rewrite nth_error_app1 by (rewrite map_length; exact L). rewrite nth_error_map. destruct (nth_error th j) as [x|]; cbn [option_map]; [|split; discriminate].
      split; intros E; injection E; unfold vx_of; intros; congruence.
    - rewrite nth_error_app2 by (rewrite map_length; lia). rewrite map_length. split; intros E.
      + destruct (j - length th) as [|q]; [discriminate E|destruct q; discriminate E].
      + assert (j < length th) by (apply nth_error_Some; congruence). lia. }
  split; intros H; apply pairs_nth_inv in H as [i [A B]].
  - destruct i as [|i]; [discriminate A|]. change (nth_error (map vx_of th ++ [v_end]) i = Some (vx_of m)) in A. change (nth_error (map vx_of th ++ [v_end]) (S i) = Some (vx_of n)) in B.
    apply NT in A, B. apply (pairs_nth _ i); assumption.
  - apply (pairs_nth _ (S i)); [change (nth_error (map vx_of th ++ [v_end]) i = Some (vx_of m))|change (nth_error (map vx_of th ++ [v_end]) (S i) = Some (vx_of n))]; apply NT; assumption.
Qed.

Record tied (A : alignment) (g : graph) (W : list wpath) : Prop := {
  td_graph : graph_of g W;
  td_some : W <> [];
  td_threads : map (fun p => map fst (snd p)) W = map (map vx_of) (threads A);
  td_next : g_next g = vx_of (length (node_words A));
  td_single : forall wp v ts, In wp W -> In (v, ts) (snd wp) -> exists t, ts = [t];
  td_words : forall wp v t, In wp W -> In (v, [t]) (snd wp) -> exists n, v = vx_of n /\ nth_error (node_words A) n = Some (tk_str t)
}.

Section Ranks.
  Variables (A : alignment) (g : graph) (W : list wpath) (rk : vid -> nat) (mm : nat) (l : list vid).
  Hypothesis TD : tied A g W.
  Hypothesis ON : forall n, n < length (node_words A) -> exists th, In th (threads A) /\ In n th.
  Hypothesis RO : rank_ok g rk mm l.
  Let GI := td_graph _ _ _ TD.
  Let NE := td_some _ _ _ TD.

  Lemma wp_thread : forall wp, In wp W -> exists th, In th (threads A) /\ map fst (snd wp) = map vx_of th.
  Proof.
    intros wp H. apply (in_map (fun p => map fst (snd p))) in H. rewrite (td_threads _ _ _ TD) in H. apply in_map_iff in H as [th [E H]]. exists th. auto.
  Qed.
  Lemma thread_wp : forall th, In th (threads A) -> exists wp, In wp W /\ map fst (snd wp) = map vx_of th.
  Proof.
    intros th H. apply (in_map (map vx_of)) in H. rewrite <- (td_threads _ _ _ TD) in H. apply in_map_iff in H as [wp [E H]]. exists wp. auto.
  Qed.
  Lemma node_vertex : forall n, In (vx_of n) (vertices g) <-> n < length (node_words A).
  Proof.
    intros n. split.
    - intros H. pose proof (gi_bound _ _ GI _ H) as B. rewrite (td_next _ _ _ TD) in B. unfold vx_of in B. lia.
    - intros H. destruct (ON n H) as [th [T1 T2]]. destruct (thread_wp th T1) as [wp [P1 P2]]. apply (in_map vx_of) in T2. rewrite <- P2 in T2.
      apply in_map_iff in T2 as [[v ts] [E T2]]. cbn [fst] in E. subst v. apply (gi_on _ _ GI wp _ ts P1 T2).
  Qed.
  Lemma vertex_node : forall v, In v (vertices g) -> v = v_start \/ v = v_end \/ exists n, v = vx_of n /\ n < length (node_words A).
  Proof.
    intros v H. destruct v as [|[|n]]; [left; reflexivity|right; left; reflexivity|]. right. right. exists n. split; [reflexivity|]. apply node_vertex. exact H.
  Qed.
  Lemma chain_of : forall wp th, map fst (snd wp) = map vx_of th -> chain wp = v_start :: map vx_of th ++ [v_end].
  Proof. intros wp th E. unfold chain. rewrite E. reflexivity. Qed.
  Lemma edge_node : forall m n, edge g (vx_of m) (vx_of n) <-> In (m, n) (followed A).
  Proof.
    intros m n. rewrite (graph_edge_path g W _ _ GI). unfold followed. rewrite in_flat_map. split.
    - intros [p [P Q]]. destruct (wp_thread p P) as [th [T1 T2]]. exists th. split; [exact T1|]. rewrite (chain_of p th T2) in Q. apply (proj1 (thread_edge th m n)) in Q. exact Q.
    - intros [th [T Q]]. destruct (thread_wp th T) as [p [P1 P2]]. exists p. split; [exact P1|]. rewrite (chain_of p th P2). apply thread_edge. exact Q.
  Qed.
  Lemma edge_in : forall u v, edge g u v -> In u (vertices g) /\ In v (vertices g).
  Proof.
    intros u v H. apply (graph_edge_path g W _ _ GI) in H as [p [P Q]].
    assert (C : forall x, In x (chain p) -> In x (vertices g)).
    { intros x [<-|X]; [apply (start_In _ _ GI)|]. apply in_app_or in X as [X|[<-|[]]]; [|apply (end_In _ _ GI)].
      apply in_map_iff in X as [[v' ts] [<- X]]. apply (gi_on _ _ GI p v' ts P X). }
    apply pairs_nth_inv in Q as [i [Q1 Q2]]. apply nth_error_In in Q1, Q2. auto.
  Qed.
  Lemma edge_up : forall v k, In v (vertices g) -> rk v = S k -> exists u, edge g u v /\ rk u = k.
  Proof. intros v k H E. rewrite (ro_eq _ _ _ _ RO v H) in E. apply rank_of_pos in E. exact E. Qed.
  Lemma rk_start : rk v_start = 0. Proof. exact (rank_start g W rk mm l GI RO). Qed.
  Lemma rk_node : forall n, n < length (node_words A) -> 1 <= rk (vx_of n) < rk v_end.
  Proof.
    intros n H. split.
    - destruct (rk (vx_of n)) eqn:E; [|lia]. apply (rank_zero g W rk mm l GI RO NE) in E; [discriminate E|]. apply node_vertex. exact H.
    - destruct (ON n H) as [th [T1 T2]]. destruct (thread_wp th T1) as [p [P1 P2]].
      apply In_nth_error in T2 as [i T2]. apply (chain_mono rk (chain p)) with (j := S (length th)) (i := S i).
      + intros u v Q. apply (ro_edge _ _ _ _ RO). apply (graph_edge_path g W _ _ GI). exists p. auto.
      + assert (i < length th) by (apply nth_error_Some; congruence). lia.
      + rewrite (chain_of p th P2). cbn [nth_error]. rewrite nth_error_app1 by (rewrite map_length; apply nth_error_Some; congruence).
        rewrite nth_error_map, T2. reflexivity.
      + rewrite (chain_of p th P2). cbn [nth_error]. rewrite nth_error_app2 by (rewrite map_length; lia). rewrite map_length, Nat.sub_diag. reflexivity.
  Qed.

  Lemma place_rank : forall f n, n < length (node_words A) -> rk (vx_of n) <= f -> place_of f (followed A) n = rk (vx_of n).
  Proof.
    induction f as [|f IH]; intros n Hn L; [pose proof (rk_node n Hn); lia|]. cbn [place_of].
    destruct (rk (vx_of n)) as [|k] eqn:K; [pose proof (rk_node n Hn); lia|]. f_equal.
    assert (PR : forall m, In (m, n) (followed A) -> m < length (node_words A) /\ rk (vx_of m) < S k).
    { intros m H. apply edge_node in H. split; [apply node_vertex; apply (edge_in _ _ H)|]. rewrite <- K. apply (ro_edge _ _ _ _ RO). exact H. }
    apply Nat.le_antisymm.
    - apply list_max_bound. intros x Hx. apply in_map_iff in Hx as [[m n'] [E Hx]]. apply filter_In in Hx as [Hx Q]. cbn [fst snd] in *. apply Nat.eqb_eq in Q. subst n'.
      destruct (PR m Hx) as [P1 P2]. rewrite IH in E by lia. lia.
    - destruct (edge_up (vx_of n) k) as [u [E R]]; [apply node_vertex; exact Hn|exact K|].
      destruct (vertex_node u (proj1 (edge_in _ _ E))) as [->|[->|[m [-> Hm]]]].
      + rewrite rk_start in R. lia.
      + pose proof (rk_node n Hn). pose proof (ro_edge _ _ _ _ RO _ _ E). lia.
      + apply edge_node in E. rewrite <- R. apply list_max_in. apply in_map_iff. exists (m, n). cbn [fst]. split; [apply IH; [exact Hm|lia]|].
        apply filter_In. split; [exact E|]. cbn [snd]. apply Nat.eqb_refl.
  Qed.

  Lemma rank_le_nodes : forall n, n < length (node_words A) -> rk (vx_of n) <= length (node_words A).
  Proof.
    intros n Hn. pose proof (rk_node n Hn) as [R1 R2].
    assert (EX : forall k, k <= rk (vx_of n) -> exists vs, map rk vs = seq 1 k /\ incl vs (map vx_of (nodes A))).
    { induction k as [|k IH]; intros L; [exists []; split; [reflexivity|intros x []]|]. destruct IH as [vs [V1 V2]]; [lia|].
      assert (LM : S k < mm) by (pose proof (rank_end_max g W rk mm l GI RO NE); lia).
      destruct (ro_onto _ _ _ _ RO (S k) LM) as [v [Hv Rv]]. exists (vs ++ [v]). split.
      - rewrite map_app, V1, seq_S. cbn [map]. f_equal. f_equal. lia.
      - intros x Hx. apply in_app_or in Hx as [Hx|[<-|[]]]; [apply V2; exact Hx|].
        destruct (vertex_node v Hv) as [->|[->|[m [-> Hm]]]]; [rewrite rk_start in Rv; lia|lia|]. apply in_map. apply in_seq. lia. }
    destruct (EX _ (le_n _)) as [vs [V1 V2]].
    assert (ND : NoDup vs) by (apply (NoDup_map_inv rk); rewrite V1; apply seq_NoDup).
    pose proof (NoDup_incl_length ND V2) as LN. unfold nodes in LN. rewrite map_length, seq_length in LN.
    rewrite <- (map_length rk), V1, seq_length in LN. exact LN.
  Qed.

  Theorem place_is_rank : forall n, n < length (node_words A) -> place_in A n = rk (vx_of n).
  Proof. intros n Hn. apply place_rank; [exact Hn|apply rank_le_nodes; exact Hn]. Qed.

  Theorem breadth_is_rank : breadth A = rk v_end - 1.
  Proof.
    unfold breadth. apply Nat.le_antisymm.
    - apply list_max_bound. intros x Hx. apply in_map_iff in Hx as [n [<- Hn]]. apply in_seq in Hn. rewrite place_is_rank by lia. pose proof (rk_node n). lia.
    - destruct (rk v_end) as [|k] eqn:K; [lia|]. destruct (edge_up v_end k (end_In _ _ GI) K) as [u [E R]].
      destruct (vertex_node u (proj1 (edge_in _ _ E))) as [->|[->|[m [-> Hm]]]].
      + rewrite rk_start in R. lia.
      + pose proof (ro_edge _ _ _ _ RO _ _ E). lia.
      + replace (S k - 1) with (place_in A m) by (rewrite place_is_rank by exact Hm; lia). apply list_max_in. apply in_map. apply in_seq. lia.
  Qed.
End Ranks.

(** ** Numbers of vertices *)
Definition fresh (al : list (nat * vid)) (ts : list token) : nat := length (filter (fun t => negb (dmem Nat.eqb (tk_pos t) al)) ts).
Lemma merge_tokens_next : forall sg al ts g la t2v g' la' t2v', merge_tokens g sg ts al la t2v = Ok (g', la', t2v') -> g_next g' = g_next g + fresh al ts.
Proof.
  intros sg al. unfold fresh, dmem. induction ts as [|t ts IH]; intros g la t2v g' la' t2v' H; cbn [merge_tokens filter] in *.
  - injection H as <- _ _. cbn. lia.
  - destruct (dget Nat.eqb (tk_pos t) al) as [v|] eqn:D.
    + apply bind_ok in H as [g1 [A H]]. apply IH in H. rewrite H. cbn [negb]. f_equal.
      unfold connect. cbn [g_next]. unfold graph_add_token in A. apply bind_ok in A as [vx [_ A]]. injection A as <-. reflexivity.
    + destruct (add_vertex g t sg) as [g1 v] eqn:EV. apply IH in H. rewrite H. cbn [negb length]. unfold add_vertex in EV. injection EV as <- <-. unfold connect. cbn. lia.
Qed.
Lemma merge_next : forall g sg ts al g' new, merge g sg ts al = Ok (g', new) -> g_next g' = g_next g + fresh al ts.
Proof.
  intros g sg ts al g' new H. unfold merge in H. apply bind_ok in H as [[[g1 la] t2v] [A H]]. apply ok_inj in H. injection H as <- _.
  apply merge_tokens_next in A. unfold connect. cbn [g_next]. exact A.
Qed.

Lemma assign_numbers : forall al ts L N, Forall2 (fun t o => dget Nat.eqb (tk_pos t) al = option_map vx_of o) ts L -> assign al (vx_of N) ts = map vx_of (with_new N L).
Proof.
  intros al ts L N F. revert N. induction F as [|t o ts L E F IH]; intros N; [reflexivity|]. cbn [assign]. rewrite E. destruct o as [n|]; cbn [option_map with_new map]; f_equal.
  - apply IH.
  - apply (IH (S N)).
Qed.
Lemma fresh_numbers : forall al ts L, Forall2 (fun t o => dget Nat.eqb (tk_pos t) al = option_map vx_of o) ts L -> fresh al ts = length (new_words L (map tk_str ts)).
Proof.
  intros al ts L F. induction F as [|t o ts L E F IH]; [reflexivity|]. unfold fresh in *. cbn [filter map new_words]. unfold dmem in *. rewrite E.
  destruct o as [n|]; cbn [option_map negb length]; [exact IH|f_equal; exact IH].
Qed.
Lemma with_new_word : forall L text N i n s, nth_error (with_new N L) i = Some n -> nth_error text i = Some s ->
  nth_error L i = Some (Some n) \/ (nth_error L i = Some None /\ N <= n /\ nth_error (new_words L text) (n - N) = Some s).
Proof.
  induction L as [|o L IH]; intros text N i n s H T; [destruct i; discriminate H|]. destruct text as [|s0 text]; [destruct i; discriminate T|].
  destruct i as [|i].
  - cbn [nth_error] in T. injection T as ->. destruct o as [n0|]; cbn in H; injection H as ->; [left; reflexivity|]. right. split; [reflexivity|]. split; [lia|].
    cbn [new_words]. rewrite Nat.sub_diag. reflexivity.
  - cbn [nth_error] in T. destruct o as [n0|]; cbn [with_new nth_error] in H; cbn [nth_error new_words].
    + exact (IH text N i n s H T).
    + destruct (IH text (S N) i n s H T) as [K|[K1 [K2 K3]]]; [left; exact K|]. right. split; [exact K1|]. split; [lia|].
      replace (n - N) with (S (n - S N)) by lia. exact K3.
Qed.
Lemma with_new_all : forall L text N n, length text = length L -> N <= n < N + length (new_words L text) -> In n (with_new N L).
Proof.
  induction L as [|o L IH]; intros text N n E H; [cbn in H; lia|]. destruct text as [|s text]; [discriminate E|]. cbn [length] in E.
  destruct o as [n0|]; cbn [new_words with_new length] in *.
  - right. apply (IH text N n); [lia|exact H].
  - destruct (Nat.eq_dec n N) as [->|NE]; [left; reflexivity|]. right. apply (IH text (S N) n); lia.
Qed.
Lemma with_new_length : forall L N, length (with_new N L) = length L.
Proof. induction L as [|[n|] L IH]; intros N; cbn [with_new length]; auto. Qed.

Lemma find_fst : forall (l : list (nat * nat)) y x, StronglySorted (fun p q => fst p < fst q /\ snd p <= snd q) l -> In (y, x) l -> List.find (fun p => fst p =? y) l = Some (y, x).
Proof.
  induction l as [|[a b] l IH]; intros y x ST H; [destruct H|]. inversion ST as [|? ? ST' FA]; subst. cbn [List.find fst]. destruct H as [H|H].
  - injection H as -> ->. rewrite Nat.eqb_refl. reflexivity.
  - rewrite Forall_forall in FA. pose proof (FA _ H) as [Q _]. cbn [fst] in Q. replace (a =? y) with false by (symmetry; apply Nat.eqb_neq; lia). apply IH; assumption.
Qed.

Section Choice.
  Variables (A : alignment) (g : graph) (W : list wpath) (rk : vid -> nat) (mm : nat) (l : list vid).
  Hypothesis TD : tied A g W.
  Hypothesis ON : forall n, n < length (node_words A) -> exists th, In th (threads A) /\ In n th.
  Hypothesis RO : rank_ok g rk mm l.
  Hypothesis CL : clear A.
  Variables (ts : list token) (path : list vid) (M : nat -> nat -> bool) (ms : list move) (al : list (nat * vid)).
  Hypothesis OS : optimal_step None g rk W ts path M ms.
  Hypothesis ND : NoDup path.
  Hypothesis PA : path = assign al (g_next g) ts.
  Hypothesis AV : forall t v, In t ts -> dget Nat.eqb (tk_pos t) al = Some v -> In v (vertices g).
  Let text := map tk_str ts.
  Let GI := td_graph _ _ _ TD.

  Lemma text_nth : forall i s, nth_error text i = Some s <-> exists t, nth_error ts i = Some t /\ tk_str t = s.
  Proof.
    intros i s. unfold text. rewrite nth_error_map. destruct (nth_error ts i) as [t|]; cbn [option_map]; split.
    - intros E. injection E as <-. eauto.
    - intros [t' [E <-]]. injection E as <-. reflexivity.
    - discriminate.
    - intros [t' [E _]]. discriminate E.
  Qed.
  Lemma stands_iff : forall x s n, stands A x s n = true <-> place_in A n = x /\ nth_error (node_words A) n = Some s.
  Proof.
    intros x s n. unfold stands. rewrite andb_true_iff, Nat.eqb_eq. destruct (nth_error (node_words A) n) as [s'|].
    - rewrite str_eqb_ok. split; intros [P Q]; (split; [exact P|]); congruence.
    - split; intros [_ Q]; discriminate Q.
  Qed.
  Lemma on_node : forall v s, on_vertex W v s <-> exists n, v = vx_of n /\ nth_error (node_words A) n = Some s.
  Proof.
    intros v s. split.
    - intros [wp [t [P [Q <-]]]]. apply (td_words _ _ _ TD wp v t P Q).
    - intros [n [-> E]]. assert (L : n < length (node_words A)) by (apply nth_error_Some; congruence).
      destruct (ON n L) as [th [T1 T2]]. destruct (thread_wp A g W TD th T1) as [wp [P1 P2]]. apply (in_map vx_of) in T2. rewrite <- P2 in T2.
      apply in_map_iff in T2 as [[v tl] [E1 T2]]. cbn [fst] in E1. subst v. destruct (td_single _ _ _ TD wp _ tl P1 T2) as [t ->].
      exists wp, t. split; [exact P1|]. split; [exact T2|]. destruct (td_words _ _ _ TD wp _ t P1 T2) as [n' [E2 E3]]. apply vx_of_inj in E2. subst n'. congruence.
  Qed.
  Lemma node_at : forall n x s, nth_error (node_words A) n = Some s -> rk (vx_of n) = x -> stands A x s n = true /\ In n (nodes A).
  Proof.
    intros n x s E R. assert (L : n < length (node_words A)) by (apply nth_error_Some; congruence). split; [|apply in_seq; lia].
    apply stands_iff. split; [|exact E]. rewrite (place_is_rank A g W rk mm l TD ON RO n L). exact R.
  Qed.
  Lemma M_fits : forall y x, M y x = fits A text y x.
  Proof.
    intros y x. destruct (M y x) eqn:EM, (fits A text y x) eqn:EF; try reflexivity; exfalso.
    - destruct (os_sound _ _ _ _ _ _ _ _ OS y x EM) as [t [v [Y [T [V [R O]]]]]]. apply on_node in O as [n [-> E]].
      destruct (node_at n x _ E R) as [S1 S2]. destruct y as [|i]; [lia|]. cbn [fits] in EF. replace (S i - 1) with i in T by lia.
      rewrite (proj2 (text_nth i (tk_str t))) in EF by eauto. rewrite <- not_true_iff_false in EF. apply EF. apply existsb_exists. eauto.
    - destruct y as [|i]; [discriminate EF|]. cbn [fits] in EF. destruct (nth_error text i) as [s|] eqn:T; [|discriminate EF]. apply text_nth in T as [t [T <-]].
      apply existsb_exists in EF as [n [N SN]]. apply stands_iff in SN as [S1 S2]. assert (L : n < length (node_words A)) by (apply nth_error_Some; congruence).
      rewrite (place_is_rank A g W rk mm l TD ON RO n L) in S1.
      rewrite (os_complete _ _ _ _ _ _ _ _ OS eq_refl (S i) x t (vx_of n)) in EM; [discriminate EM|lia| | |exact S1|].
      + replace (S i - 1) with i by lia. exact T.
      + apply (node_vertex A g W TD ON n). exact L.
      + apply on_node. eauto.
  Qed.
  Lemma meetings_met : meetings A text = met (walk M ms).
  Proof.
    unfold meetings. pose proof (walk_ext _ _ M_fits) as EX. rewrite EX. do 2 f_equal.
    rewrite (breadth_is_rank A g W rk mm l TD ON RO). unfold text at 2. rewrite map_length.
    destruct (best_way_good (fits A text) (length ts) (rk v_end - 1)) as [E [Q [B P]]]. pose proof E as [E1 E2]. symmetry.
    set (ms0 := snd (best_way (fits A text) (length ts) (rk v_end - 1))) in *.
    assert (EN : ends (fits A text) ms (length ts) (rk v_end - 1)).
    { split; rewrite <- EX; [apply (os_token _ _ _ _ _ _ _ _ OS)|apply (os_rank _ _ _ _ _ _ _ _ OS)]. }
    apply (one_way (fits A text) ms ms0 (length ts) (rk v_end - 1)); auto.
    - intros ms2 y2 x2 F1 F2. destruct F1 as [F1 F3], F2 as [F2 F4], EN as [EN1 EN2]. rewrite <- !EX in *.
      apply (os_best _ _ _ _ _ _ _ _ OS); congruence.
    - intros before m after E0 m' SO other R T. rewrite <- !EX in *. apply (os_first _ _ _ _ _ _ _ _ OS before m after E0 m' SO other R T).
  Qed.
  Theorem chosen_node : forall i t, nth_error ts i = Some t -> dget Nat.eqb (tk_pos t) al = option_map vx_of (old_node A text i).
  Proof.
    intros i t Ht. pose proof (proj1 (walk_met M ms)) as ST. pose proof (proj2 (text_nth i (tk_str t)) (ex_intro _ t (conj Ht eq_refl))) as HS.
    assert (LP : length path = length ts) by (apply (os_len _ _ _ _ _ _ _ _ OS)).
    assert (OV : forall j u v, nth_error ts j = Some u -> nth_error path j = Some v -> In v (vertices g) ->
       exists n, v = vx_of n /\ nth_error (node_words A) n = Some (tk_str u) /\ place_in A n = rk v /\ In (S j, rk v) (meetings A text)).
    { intros j u v Hu Hv I. destruct (os_aligned _ _ _ _ _ _ _ _ OS j v u Hv Hu I) as [O1 O2]. apply on_node in O2 as [n [-> E]]. exists n. split; [reflexivity|]. split; [exact E|].
      split; [apply (place_is_rank A g W rk mm l TD ON RO); apply nth_error_Some; congruence|]. rewrite meetings_met. exact O1. }
    destruct (dget Nat.eqb (tk_pos t) al) as [v|] eqn:D.
    - assert (Hv : nth_error path i = Some v).
      { rewrite PA. clear - Ht D. revert i Ht. generalize (g_next g). induction ts as [|a r IH]; intros nx i Ht; [destruct i; discriminate Ht|]. destruct i as [|i]; cbn [nth_error assign] in *.
        - injection Ht as ->. rewrite D. reflexivity.
        - destruct (dget Nat.eqb (tk_pos a) al); cbn [nth_error]; apply IH; assumption. }
      assert (I : In v (vertices g)) by (apply (AV t v); [apply nth_error_In in Ht; exact Ht|exact D]).
      destruct (OV i t v Ht Hv I) as [n [-> [E1 [E2 E3]]]]. unfold old_node. rewrite HS.
      rewrite meetings_met in E3. pose proof (find_fst _ _ _ ST E3) as FF. rewrite <- meetings_met in FF. rewrite FF. cbv iota beta zeta.
      destruct (existsb _ (meetings A text)) eqn:EX.
      + exfalso. apply existsb_exists in EX as [[y' x'] [Q1 Q2]]. cbn [fst snd] in Q2. rewrite !andb_true_iff, Nat.eqb_eq, Nat.ltb_lt in Q2. destruct Q2 as [[-> Q2] Q3].
        destruct (nth_error text (y' - 1)) as [s'|] eqn:T'; [|discriminate Q3]. apply str_eqb_ok in Q3. subst s'. apply text_nth in T' as [t' [T' T2]].
        rewrite meetings_met in Q1. destruct (os_met _ _ _ _ _ _ _ _ OS y' _ Q1) as [y2 [v2 [u [u2 [C1 [C2 [C3 [C4 [C5 [C6 [C7 [C8 C9]]]]]]]]]]]].
        destruct (OV (y2 - 1) u2 v2 C8 C3 C4) as [n2 [-> [F1 [F2 _]]]].
        assert (n2 = n). { apply (CL n2 n (tk_str t)); [|exact E1|congruence]. rewrite F1. congruence. }
        subst n2. pose proof (nth_unique path i (y2 - 1) (vx_of n) ND Hv C3). lia.
      + cbn [option_map]. destruct (node_at n _ _ E1 eq_refl) as [S1 S2]. destruct (List.find (stands A (rk (vx_of n)) (tk_str t)) (nodes A)) as [n2|] eqn:F.
        * cbn [option_map]. apply find_some in F as [_ F]. apply stands_iff in F as [F1 F2]. do 2 f_equal. apply (CL n n2 (tk_str t)); [exact E1|exact F2|congruence].
        * exfalso. pose proof (find_none _ _ F _ S2). congruence.
    - symmetry. destruct (old_node A text i) as [n|] eqn:O; [|reflexivity]. exfalso. unfold old_node in O. rewrite HS in O.
      destruct (List.find (fun p => fst p =? S i) (meetings A text)) as [[y x]|] eqn:F; [|discriminate O]. apply find_some in F as [F1 F2]. cbn [fst] in F2. apply Nat.eqb_eq in F2. subst y.
      destruct (existsb _ (meetings A text)) eqn:EX; [discriminate O|]. rewrite meetings_met in F1.
      destruct (os_met _ _ _ _ _ _ _ _ OS (S i) x F1) as [y2 [v2 [u [u2 [C1 [C2 [C3 [C4 [C5 [C6 [C7 [C8 C9]]]]]]]]]]]].
      replace (S i - 1) with i in C7 by lia. rewrite Ht in C7. injection C7 as <-.
      destruct (Nat.eq_dec y2 (S i)) as [->|NE].
      + replace (S i - 1) with i in * by lia. rewrite PA in C3. pose proof (assign_old al ts (g_next g) i t v2 Ht C3 (gi_bound _ _ GI _ C4)). congruence.
      + rewrite <- not_true_iff_false in EX. apply EX. apply existsb_exists. exists (y2, x). split; [rewrite meetings_met; exact C2|]. cbn [fst snd].
        rewrite Nat.eqb_refl. replace (S i <? y2) with true by (symmetry; apply Nat.ltb_lt; lia). cbn [andb].
        rewrite (proj2 (text_nth (y2 - 1) (tk_str u2))) by eauto. apply str_eqb_ok. congruence.
  Qed.

  Lemma chosen_nodes : Forall2 (fun t o => dget Nat.eqb (tk_pos t) al = option_map vx_of o) ts (map (old_node A text) (seq 0 (length text))).
  Proof.
    apply Forall2_pointwise; [unfold text; rewrite !map_length, seq_length; reflexivity|]. intros k t o Ht Ho. rewrite nth_error_map in Ho.
    assert (K : k < length ts) by (apply nth_error_Some; congruence). rewrite nth_error_seq in Ho by (unfold text; rewrite map_length; exact K).
    cbn [option_map Nat.add] in Ho. injection Ho as <-. apply chosen_node. exact Ht.
  Qed.
  Lemma old_node_stands : forall i n s, nth_error text i = Some s -> old_node A text i = Some n -> nth_error (node_words A) n = Some s.
  Proof.
    intros i n s HS O. unfold old_node in O. rewrite HS in O. destruct (List.find _ (meetings A text)) as [[y x]|]; [|discriminate O]. destruct (existsb _ _); [discriminate O|].
    apply find_some in O as [_ O]. apply stands_iff in O. apply O.
  Qed.

  Theorem step_tied : forall g' new sg, merge g sg ts al = Ok (g', new) -> graph_of g' (W ++ [(sg, steps ts path)]) ->
    tied (add_text A text) g' (W ++ [(sg, steps ts path)]) /\ forall n, n < length (node_words (add_text A text)) -> exists th, In th (threads (add_text A text)) /\ In n th.
  Proof.
    intros g' new sg MG GI'. pose proof chosen_nodes as CN. set (L := map (old_node A text) (seq 0 (length text))) in *.
    assert (LL : length text = length L) by (unfold L; rewrite map_length, seq_length; reflexivity).
    assert (LP : length path = length ts) by (apply (os_len _ _ _ _ _ _ _ _ OS)).
    assert (PE : path = map vx_of (with_new (length (node_words A)) L)).
    { rewrite PA, (td_next _ _ _ TD). apply assign_numbers. exact CN. }
    assert (EA : add_text A text = {| node_words := node_words A ++ new_words L text; threads := threads A ++ [with_new (length (node_words A)) L] |}) by reflexivity.
    rewrite EA. clear EA. split.
    - constructor; cbn [node_words threads].
      + exact GI'.
      + destruct W; discriminate.
      + rewrite !map_app. f_equal; [exact (td_threads _ _ _ TD)|]. cbn [map snd]. rewrite (steps_fst _ _ LP), PE. reflexivity.
      + rewrite (merge_next _ _ _ _ _ _ MG), (td_next _ _ _ TD), (fresh_numbers _ _ _ CN), app_length. fold text. unfold vx_of. lia.
      + intros wp v tl Hwp Hi. apply in_app_or in Hwp as [Hwp|[<-|[]]]; [apply (td_single _ _ _ TD wp v tl Hwp Hi)|]. cbn [snd] in Hi.
        destruct (steps_single _ _ _ _ Hi) as [t [-> _]]. eauto.
      + intros wp v t Hwp Hi. apply in_app_or in Hwp as [Hwp|[<-|[]]].
        * destruct (td_words _ _ _ TD wp v t Hwp Hi) as [n [-> E]]. exists n. split; [reflexivity|]. rewrite nth_error_app1; [exact E|]. apply nth_error_Some. congruence.
        * cbn [snd] in Hi. destruct (steps_at _ _ _ _ LP Hi) as [i [I1 I2]]. rewrite PE in I1. apply nth_map in I1 as [n [I1 <-]]. exists n. split; [reflexivity|].
          pose proof (proj2 (text_nth i (tk_str t)) (ex_intro _ t (conj I2 eq_refl))) as HS.
          destruct (with_new_word L text _ i n _ I1 HS) as [K|[K1 [K2 K3]]].
          -- unfold L in K. apply nth_map in K as [j [J1 J2]]. assert (Li : i < length text) by (apply nth_error_Some; congruence).
             rewrite nth_error_seq in J1 by exact Li. injection J1 as <-. pose proof (old_node_stands i n _ HS J2) as E. rewrite nth_error_app1; [exact E|]. apply nth_error_Some. congruence.
          -- rewrite nth_error_app2 by exact K2. exact K3.
    - cbn [node_words threads]. intros n Hn. rewrite app_length in Hn. destruct (lt_dec n (length (node_words A))) as [Q|Q].
      + destruct (ON n Q) as [th [T1 T2]]. exists th. split; [apply in_or_app; left; exact T1|exact T2].
      + exists (with_new (length (node_words A)) L). split; [apply in_or_app; right; left; reflexivity|]. apply (with_new_all L text); [exact LL|lia].
  Qed.
End Choice.

(** ** The stages *)
Lemma paths_one : forall g sg ts p q, graph_of g [(sg, steps ts p)] -> graph_of g [(sg, steps ts q)] -> length p = length ts -> length q = length ts ->
  NoDup (map tk_pos ts) -> p = q.
Proof.
  intros g sg ts p q G1 G2 L1 L2 ND. apply list_ext. intros i. destruct (nth_error p i) as [v|] eqn:E.
  - destruct (nth_error ts i) as [t|] eqn:T; [|apply nth_error_None in T; assert (i < length p) by (apply nth_error_Some; congruence); lia].
    assert (AV : at_vertex [(sg, steps ts p)] (tk_pos t) v).
    { exists (sg, steps ts p), t. split; [left; reflexivity|]. split; [|reflexivity]. cbn [snd]. unfold steps.
      apply (nth_error_In _ i). clear - E T. revert i ts E T. induction p as [|a p IH]; intros i ts E T; [destruct i; discriminate E|].
      destruct ts as [|b ts]; [destruct i; discriminate T|]. destruct i as [|i]; cbn in *; [congruence|]. apply IH; assumption. }
    apply (at_vertex_paths g _ _ G1 G2) in AV as [wp [t' [[<-|[]] [Q1 Q2]]]]. cbn [snd] in Q1. destruct (steps_at _ _ _ _ L2 Q1) as [j [J1 J2]].
    assert (j = i). { apply (nth_unique (map tk_pos ts) j i (tk_pos t) ND); rewrite nth_error_map; [rewrite J2|rewrite T]; cbn [option_map]; congruence. }
    subst j. symmetry. exact J1.
  - symmetry. apply nth_error_None. apply nth_error_None in E. lia.
Qed.

Definition nothing : alignment := {| node_words := []; threads := [] |}.
Lemma nothing_new : forall text i, old_node nothing text i = None.
Proof.
  intros text i. unfold old_node. destruct (nth_error text i) as [s|]; [|reflexivity]. destruct (List.find _ _) as [[y x]|]; [|reflexivity]. destruct (existsb _ _); reflexivity.
Qed.
Lemma new_all : forall text, new_words (map (fun _ => None) text) text = text.
Proof. induction text as [|s text IH]; [reflexivity|]. cbn [map new_words]. f_equal. exact IH. Qed.

Section Runs.
  Variables (c : collation) (ti : tindex).
  Hypothesis IX : index_ok c ti.
  Hypothesis TX : index_text_ok ti.
  Hypothesis SG : ~ In [] (map w_sigil c).
  Variable topo : graph -> res (list vid).
  Hypothesis TO : topo_ok topo.

  Definition words_of (iw : iwitness) : list str := map tk_str (iw_toks iw).
  Definition on_threads (A : alignment) : Prop := forall n, n < length (node_words A) -> exists th, In th (threads A) /\ In n th.

  Lemma first_tied : forall filt iw rest st, ti_wits ti = iw :: rest -> first_step ti iw = Ok st ->
    exists W, al_inv filt ti [iw] st W /\ tied (add_text nothing (words_of iw)) (a_graph st) W /\ on_threads (add_text nothing (words_of iw)).
  Proof.
    intros filt iw rest st E F. assert (Hiw : In iw (ti_wits ti)) by (rewrite E; left; reflexivity).
    destruct (ix_consecutive c ti IX iw Hiw) as [p0 [HP NEt]].
    assert (NDp : NoDup (map tk_pos (iw_toks iw))) by (rewrite HP; apply seq_NoDup).
    assert (AO : align_ok empty_graph (fun v => v) [] (iw_toks iw)).
    { constructor.
      - intros t v _ H. discriminate.
      - intros t1 t2 v _ _ H. discriminate.
      - intros u v H. destruct H.
      - intros t v _ H. discriminate.
      - unfold v_start, v_end. lia.
      - apply StronglySorted_of_nth_error. intros i j a b _ _ _ v1 v2 H. discriminate. }
    destruct (merge_graph_of empty_graph [] (iw_sigil iw) (iw_toks iw) [] (fun v => v) empty_graph_of)
      as [g' [new [M1 [M2 [M3 [M4 M5]]]]]]; auto.
    { apply (wit_sigil_nonempty c ti IX SG). exact Hiw. }
    destruct (first_step_inv c ti filt IX SG iw rest E) as [st1 [path [F1 F2]]]. rewrite F in F1. injection F1 as <-.
    assert (PL : exists p0, length p0 = length (iw_toks iw) /\ steps (iw_toks iw) path = steps (iw_toks iw) p0).
    { pose proof (al_paths _ _ _ _ _ F2) as FP. inversion FP as [|? ? ? ? [_ [q0 [L0 E0]]] _]; subst. cbn [snd] in E0. eauto. }
    destruct PL as [q0 [L0 E0]]. rewrite E0 in F2. clear E0 path.
    assert (EG : a_graph st = g').
    { unfold first_step in F. rewrite M1 in F. cbn [bind] in F. apply bind_ok in F as [r [_ F]]. apply bind_ok in F as [va [_ F]]. injection F as <-. reflexivity. }
    pose proof (al_graph _ _ _ _ _ F2) as GI. rewrite EG in GI. cbn [app] in M2.
    assert (EP : q0 = assign [] (g_next empty_graph) (iw_toks iw)).
    { apply (paths_one g' (iw_sigil iw) (iw_toks iw)); auto. apply assign_length. }
    assert (EL : map (old_node nothing (words_of iw)) (seq 0 (length (words_of iw))) = map (fun _ => None) (words_of iw)).
    { generalize 0. induction (words_of iw) as [|s r IH]; intros k; [reflexivity|]. rewrite <- (seq_length (length (s :: r)) k) at 1.
      assert (GEN : forall tx n k, map (old_node nothing tx) (seq k n) = repeat None n).
      { clear. intros tx. induction n as [|n IH]; intros k; [reflexivity|]. cbn [seq map repeat]. rewrite nothing_new, IH. reflexivity. }
      rewrite seq_length, GEN. clear. induction (s :: r) as [|a l IH]; [reflexivity|]. cbn [length repeat map]. f_equal. exact IH. }
    assert (EA : add_text nothing (words_of iw) = {| node_words := words_of iw; threads := [with_new 0 (map (fun _ => None) (words_of iw))] |}).
    { unfold add_text. cbv zeta. rewrite EL. cbn [nothing node_words threads app length]. rewrite new_all. reflexivity. }
    assert (CN : Forall2 (fun t o => dget Nat.eqb (tk_pos t) [] = option_map vx_of o) (iw_toks iw) (map (fun _ => None) (words_of iw))).
    { unfold words_of. rewrite map_map. clear. induction (iw_toks iw) as [|t l IH]; constructor; [reflexivity|exact IH]. }
    assert (PE : q0 = map vx_of (with_new 0 (map (fun _ => None) (words_of iw)))).
    { rewrite EP. apply (assign_numbers [] (iw_toks iw) _ 0 CN). }
    exists [(iw_sigil iw, steps (iw_toks iw) q0)]. split; [exact F2|]. rewrite EA. split.
    - constructor; cbn [node_words threads].
      + rewrite EG. exact GI.
      + discriminate.
      + cbn [map snd]. rewrite (steps_fst _ _ L0), PE. reflexivity.
      + rewrite EG, (merge_next _ _ _ _ _ _ M1), (fresh_numbers _ _ _ CN). fold (words_of iw). rewrite new_all. reflexivity.
      + intros wp v tl [<-|[]] Hi. cbn [snd] in Hi. destruct (steps_single _ _ _ _ Hi) as [t [-> _]]. eauto.
      + intros wp v t [<-|[]] Hi. cbn [snd] in Hi. destruct (steps_at _ _ _ _ L0 Hi) as [i [I1 I2]]. rewrite PE in I1. apply nth_map in I1 as [n [I1 <-]]. exists n. split; [reflexivity|].
        assert (HS : nth_error (words_of iw) i = Some (tk_str t)) by (unfold words_of; rewrite nth_error_map, I2; reflexivity).
        destruct (with_new_word _ (words_of iw) _ i n _ I1 HS) as [K|[K1 [K2 K3]]].
        * apply nth_map in K as [? [_ K]]. discriminate K.
        * rewrite new_all, Nat.sub_0_r in K3. exact K3.
    - intros n Hn. cbn [node_words threads] in *. eexists. split; [left; reflexivity|]. apply (with_new_all _ (words_of iw)); [rewrite map_length; reflexivity|]. rewrite new_all. lia.
  Qed.

  Lemma rest_tied : forall rest done st W st' A, ti_wits ti = done ++ rest -> al_inv None ti done st W -> tied A (a_graph st) W -> on_threads A ->
    (forall k, k < length rest -> clear (fold_left add_text (firstn k (map words_of rest)) A)) ->
    foldM (next_step topo None false ti) rest st = Ok st' ->
    exists W', al_inv None ti (done ++ rest) st' W' /\ tied (fold_left add_text (map words_of rest) A) (a_graph st') W' /\ on_threads (fold_left add_text (map words_of rest) A).
  Proof.
    induction rest as [|iw rest IH]; intros done st W st' A DW AL TD ON CL H.
    - cbn [foldM] in H. injection H as <-. exists W. rewrite app_nil_r. cbn [map fold_left]. auto.
    - cbn [foldM] in H. apply bind_ok in H as [st1 [H1 H2]].
      destruct (step_numbered c ti None IX TX SG topo TO done iw rest st W st1 DW (td_some _ _ _ TD) AL H1) as [rk [mm [l [path [M [ms [RO [AL' [OS [al [new [PA [AV MG]]]]]]]]]]]]].
      pose proof (al_graph _ _ _ _ _ AL') as GI'.
      assert (NDp : NoDup path).
      { assert (NC : NoDup (chain (iw_sigil iw, steps (iw_toks iw) path))) by (apply (gi_simple _ _ GI'); apply in_or_app; right; left; reflexivity).
        unfold chain in NC. cbn [snd] in NC. rewrite (steps_fst _ _ (os_len _ _ _ _ _ _ _ _ OS)) in NC. inversion NC as [|? ? _ NC']; subst. apply NoDup_app_iff in NC'. apply NC'. }
      assert (C0 : clear A) by (apply (CL 0); cbn [length]; lia).
      destruct (step_tied A (a_graph st) W rk mm l TD ON RO C0 (iw_toks iw) path M ms al OS NDp PA AV (a_graph st1) new (iw_sigil iw) MG GI') as [TD' ON'].
      assert (DW' : ti_wits ti = (done ++ [iw]) ++ rest) by (rewrite DW, <- app_assoc; reflexivity).
      destruct (IH (done ++ [iw]) st1 _ st' (add_text A (words_of iw)) DW' AL' TD' ON') as [W' [A1 [A2 A3]]].
      + intros k Hk. apply (CL (S k)). cbn [length]. lia.
      + exact H2.
      + exists W'. rewrite <- app_assoc in A1. auto.
  Qed.
End Runs.

Definition held (w : witness) (wp : wpath) : Prop :=
  exists ts p, wp = (w_sigil w, steps ts p) /\ length p = length ts /\ Forall2 (came_from (w_sigil w)) (w_toks w) ts.
Lemma stamped_held : forall c pos W, Forall2 path_for (stamped pos c) W -> Forall2 held c W.
Proof.
  induction c as [|w c IH]; intros pos W H; cbn [stamped] in H; inversion H as [|? wp ? W' P H']; subst; constructor.
  - destruct P as [P1 [p [P2 P3]]]. cbn [iw_sigil iw_toks] in *. eexists. exists p. split; [destruct wp as [sg st]; cbn [fst snd] in *; subst; reflexivity|]. split; [exact P2|]. apply stamp_came_from.
  - apply (IH _ _ H').
Qed.
Lemma stamped_words : forall c pos, map words_of (stamped pos c) = map readings c.
Proof.
  induction c as [|w c IH]; intros pos; [reflexivity|]. cbn [stamped map]. f_equal; [|apply IH]. unfold words_of, readings. cbn [iw_toks]. apply (came_readings (w_sigil w)). apply stamp_came_from.
Qed.

Theorem prog_collate : forall topo c b ti g, topo_ok topo -> good_sigla c -> aligner_collate topo None b c = Ok (ti, g) ->
  (forall k, S k < length c -> clear (progressive (firstn (S k) (map readings c)))) ->
  exists W, tied (progressive (map readings c)) g W /\ on_threads (progressive (map readings c)) /\ Forall2 held c W.
Proof.
  intros topo c b ti g TO [ND NE] H CL.
  assert (H0 : aligner_collate topo None false c = Ok (ti, g)).
  { destruct b; [|assumption]. unfold aligner_collate in *. apply bind_ok in H as [ti' [P H]]. apply bind_ok in H as [st [A H]].
    rewrite P. cbn [bind]. rewrite (align_all_detect _ _ _ _ A). exact H. }
  clear H. unfold aligner_collate in H0. apply bind_ok in H0 as [ti' [P H]]. apply bind_ok in H as [st [A H]]. injection H as -> <-.
  pose proof (prepare_index_ok _ ti ND P) as IX. pose proof (prepare_text_ok _ ti P) as TX. pose proof (ix_wits _ _ IX) as WT.
  unfold align_all in A. destruct (ti_wits ti) as [|iw rest] eqn:E; [discriminate A|]. apply bind_ok in A as [st0 [F A]].
  destruct (first_tied c ti IX NE None iw rest st0 E F) as [W0 [B1 [B2 B3]]].
  pose proof (stamped_words c 0) as SW. rewrite <- WT in SW. cbn [map] in SW.
  assert (LC : length c = S (length rest)) by (rewrite <- (stamped_length c 0), <- WT; reflexivity).
  assert (E' : ti_wits ti = [iw] ++ rest) by exact E.
  destruct (rest_tied c ti IX TX NE topo TO rest [iw] st0 W0 st (add_text nothing (words_of iw)) E' B1 B2 B3) as [W [D1 [D2 D3]]].
  - intros k Hk. specialize (CL k ltac:(lia)). rewrite <- SW in CL. exact CL.
  - exact A.
  - exists W. rewrite <- SW. split; [exact D2|]. split; [exact D3|]. apply (stamped_held c 0). rewrite <- WT. exact (al_paths _ _ _ _ _ D1).
Qed.

(** ** The table *)
Section Table.
  Variables (A : alignment) (g : graph) (W : list wpath) (rk : vid -> nat) (m : nat) (l : list vid).
  Hypothesis TD : tied A g W.
  Hypothesis ON : on_threads A.
  Hypothesis RO : rank_ok g rk m l.
  Let GI := td_graph _ _ _ TD.
  Let NW := td_some _ _ _ TD.

  Lemma any_ranks : forall k rvs, nth_error (table_ranks rk m l) k = Some rvs -> fst rvs = S k /\ In rvs (ranks_table rk m l).
  Proof.
    intros k [r vs] H.
    destruct (placed_ranks g W rk m l (ranking_for rk m l) GI NW RO (base_placed g W rk m l GI NW RO rk m l RO)) as [B _].
    split; [|apply nth_error_In in H; unfold table_ranks in H; apply filter_In in H; tauto].
    apply (map_nth_error fst) in H. unfold table_ranks, ranks_table in H. rewrite B in H. cbn [fst] in *.
    assert (L : k < m - 2) by (rewrite <- (seq_length (m - 2) 1); apply nth_error_Some; congruence). rewrite nth_error_seq in H by assumption. injection H as <-. reflexivity.
  Qed.
  Lemma any_ranks_length : length (table_ranks rk m l) = breadth A.
  Proof.
    destruct (placed_ranks g W rk m l (ranking_for rk m l) GI NW RO (base_placed g W rk m l GI NW RO rk m l RO)) as [B _].
    rewrite (breadth_is_rank A g W rk m l TD ON RO).
    unfold table_ranks, ranks_table. rewrite <- (map_length fst), B, seq_length. pose proof (rank_end_max g W rk m l GI RO NW). lia.
  Qed.
  Lemma any_cell : forall p r vs, In p W -> In (r, vs) (ranks_table rk m l) ->
    (forall v ts, In (v, ts) (snd p) -> rk v = r -> dget str_eqb (fst p) (cells_of W vs) = Some ts) /\
    ((forall v ts, In (v, ts) (snd p) -> rk v <> r) -> dget str_eqb (fst p) (cells_of W vs) = None).
  Proof.
    intros p r vs Hp Hr. destruct (ranks_vs g W rk m l GI RO r vs Hr) as [NV V]. split.
    - intros v ts Hi R. destruct (cell_of g W rk m l GI p r vs Hp Hr) as [D|[v' [ts' [B1 [B D]]]]].
      + exfalso. assert (Hv : In v vs) by (apply V; split; [apply (gi_on _ _ GI p v ts Hp Hi)|assumption]).
        assert (K : In (fst p) (map fst (cells_of W vs))).
        { apply in_map_iff. exists (fst p, ts). split; [reflexivity|]. apply in_flat_map. exists v. split; [assumption|]. apply tokens_on_In. exists p.
          split; [assumption|]. split; [reflexivity|]. apply (In_dget _ nat_eqb_ok); [apply (path_uniq g W GI p Hp)|assumption]. }
        destruct (dget_Some_key _ str_eqb_ok _ _ K) as [x E]. congruence.
      + rewrite D. apply V in B1 as [_ B1]. destruct (same_rank W rk (path_sorted g W rk m l GI RO) p v' ts' v ts Hp B Hi) as [_ ->]; [congruence|reflexivity].
    - intros N. destruct (cell_of g W rk m l GI p r vs Hp Hr) as [D|[v' [ts' [B1 [B D]]]]]; [assumption|]. exfalso. apply V in B1 as [_ B1]. apply (N v' ts' B B1).
  Qed.
  Lemma thread_node : forall th n, In th (threads A) -> In n th -> n < length (node_words A).
  Proof.
    intros th n T I. destruct (thread_wp A g W TD th T) as [wp [P1 P2]]. apply (in_map vx_of) in I. rewrite <- P2 in I. apply in_map_iff in I as [[v ts] [E I]]. cbn [fst] in E. subst v.
    apply (node_vertex A g W TD ON). apply (gi_on _ _ GI wp _ ts P1 I).
  Qed.

  Lemma places_up : forall th i j n n', In th (threads A) -> i < j -> nth_error th i = Some n -> nth_error th j = Some n' -> place_in A n < place_in A n'.
  Proof.
    intros th i j n n' T L Hi Hj. destruct (thread_wp A g W TD th T) as [p [P1 P2]].
    rewrite (place_is_rank A g W rk m l TD ON RO n) by (apply (thread_node th n T); apply nth_error_In in Hi; exact Hi).
    rewrite (place_is_rank A g W rk m l TD ON RO n') by (apply (thread_node th n' T); apply nth_error_In in Hj; exact Hj).
    apply (chain_mono rk (chain p)) with (i := S i) (j := S j); [|lia| |].
    - intros u v Q. apply (ro_edge _ _ _ _ RO). apply (graph_edge_path g W _ _ GI). exists p. auto.
    - rewrite (chain_of p th P2). cbn [nth_error]. rewrite nth_error_app1 by (rewrite map_length; apply nth_error_Some; congruence). rewrite nth_error_map, Hi. reflexivity.
    - rewrite (chain_of p th P2). cbn [nth_error]. rewrite nth_error_app1 by (rewrite map_length; apply nth_error_Some; congruence). rewrite nth_error_map, Hj. reflexivity.
  Qed.

  Lemma cell_column : forall wp th k vs, In wp W -> In th (threads A) -> map fst (snd wp) = map vx_of th -> In (S k, vs) (ranks_table rk m l) ->
    cell_is wp (at_column A th (S k)) (dget str_eqb (fst wp) (cells_of W vs)).
  Proof.
    intros wp th k vs Hw Ht E Hr. destruct (any_cell wp (S k) vs Hw Hr) as [V1 V2].
    assert (NT : forall i v ts, nth_error (snd wp) i = Some (v, ts) -> exists n, nth_error th i = Some n /\ v = vx_of n).
    { intros i v ts Q. apply (map_nth_error fst) in Q. rewrite E in Q. apply nth_map in Q as [n [Q1 Q2]]. cbn [fst] in Q2. eauto. }
    unfold at_column. destruct (List.find _ (seq 0 (length th))) as [i|] eqn:F; cbn [cell_is].
    - apply find_some in F as [F1 F2]. apply in_seq in F1. destruct (nth_error th i) as [n|] eqn:T; [|discriminate F2]. apply Nat.eqb_eq in F2.
      assert (Q : nth_error (map fst (snd wp)) i = Some (vx_of n)) by (rewrite E, nth_error_map, T; reflexivity).
      apply nth_map in Q as [[v ts] [Q1 Q2]]. cbn [fst] in Q2. subst v. exists (vx_of n), ts. split; [exact Q1|]. apply (V1 (vx_of n)); [apply nth_error_In in Q1; exact Q1|].
      rewrite <- (place_is_rank A g W rk m l TD ON RO n); [exact F2|]. apply (thread_node th n Ht). apply nth_error_In in T. exact T.
    - apply V2. intros v ts Hi R. apply In_nth_error in Hi as [i Hi]. destruct (NT i v ts Hi) as [n [T ->]].
      assert (Li : i < length th) by (apply nth_error_Some; congruence). assert (IS : In i (seq 0 (length th))) by (apply in_seq; lia).
      pose proof (find_none _ _ F i IS) as FN. cbn beta in FN. rewrite T in FN. apply Nat.eqb_neq in FN. apply FN.
      rewrite (place_is_rank A g W rk m l TD ON RO n); [exact R|]. apply (thread_node th n Ht). apply nth_error_In in T. exact T.
  Qed.

  Lemma tokens_full : forall V v, (length (tokens_on V v) <= length V) /\ (length (tokens_on V v) = length V <-> forall p, In p V -> In v (map fst (snd p))).
  Proof.
    clear. induction V as [|p V IH]; intros v; [cbn; split; [lia|split; [intros _ p []|reflexivity]]|]. destruct (IH v) as [I1 I2]. unfold tokens_on in *. cbn [flat_map length].
    rewrite app_length. destruct (dget Nat.eqb v (snd p)) as [ts|] eqn:D; cbn [length].
    - split; [lia|]. split.
      + intros Q q [<-|Hq]; [|apply I2; [lia|exact Hq]]. apply (dget_In _ nat_eqb_ok) in D. apply (in_map fst) in D. exact D.
      + intros Q. cut (length (tokens_on V v) = length V); [unfold tokens_on; lia|]. apply I2. intros q Hq. apply Q. right. exact Hq.
    - split; [lia|]. split; [lia|]. intros Q. exfalso. destruct (dget_Some_key _ nat_eqb_ok v (snd p) (Q p (or_introl eq_refl))) as [ts D']. congruence.
  Qed.

  Lemma column_variant : forall k vs, In (S k, vs) (ranks_table rk m l) ->
    c_variant (mkcol W (length W) (S k, vs)) = false <-> exists n, place_in A n = S k /\ forall th, In th (threads A) -> In n th.
  Proof.
    intros k vs Hr. destruct (ranks_vs g W rk m l GI RO (S k) vs Hr) as [NV V]. cbn [c_variant mkcol snd]. split.
    - intros Q. apply orb_false_iff in Q as [Q1 Q2]. apply Nat.ltb_ge in Q1. apply negb_false_iff in Q2. apply Nat.eqb_eq in Q2.
      destruct vs as [|v [|? ?]]; [|clear Q1|cbn [length] in Q1; lia].
      { exfalso. unfold cells_of in Q2. cbn [flat_map length] in Q2. destruct W; [apply NW; reflexivity|discriminate Q2]. }
      unfold cells_of in Q2. cbn [flat_map] in Q2. rewrite app_nil_r in Q2. pose proof (proj1 (proj2 (tokens_full W v)) Q2) as Q3. clear Q2. rename Q3 into Q2. destruct (proj1 (V v) (or_introl eq_refl)) as [V1 V2].
      destruct (vertex_node A g W TD ON v V1) as [->|[->|[n [-> Hn]]]].
      + rewrite (rk_start A g W rk m l TD RO) in V2. discriminate V2.
      + exfalso. destruct W as [|p W0] eqn:EW; [apply NW; reflexivity|]. pose proof (Q2 p (or_introl eq_refl)) as I.
        pose proof (gi_simple _ _ GI p (or_introl eq_refl)) as NC. unfold chain in NC. inversion NC as [|? ? _ NC']; subst. apply NoDup_app_iff in NC' as [_ [_ NC']].
        apply (NC' v_end I). left. reflexivity.
      + exists n. split; [rewrite (place_is_rank A g W rk m l TD ON RO n Hn); exact V2|]. intros th T. destruct (thread_wp A g W TD th T) as [wp [P1 P2]].
        specialize (Q2 wp P1). rewrite P2 in Q2. apply in_map_iff in Q2 as [n' [E I]]. apply vx_of_inj in E. subst n'. exact I.
    - intros [n [R AT]].
      assert (Hn : n < length (node_words A)).
      { destruct W as [|p W0] eqn:EW; [exfalso; apply NW; reflexivity|]. destruct (wp_thread A g _ TD p (or_introl eq_refl)) as [th [T _]]. rewrite <- EW in *. apply (thread_node th n T (AT th T)). }
      rewrite (place_is_rank A g W rk m l TD ON RO n Hn) in R.
      assert (ALL : forall p, In p W -> In (vx_of n) (map fst (snd p))).
      { intros p Hp. destruct (wp_thread A g W TD p Hp) as [th [T ->]]. apply in_map. apply AT. exact T. }
      assert (U : forall u, In u vs -> u = vx_of n).
      { intros u Hu. apply V in Hu as [U1 U2]. destruct (vertex_node A g W TD ON u U1) as [->|[->|[n' [-> Hn']]]].
        - rewrite (rk_start A g W rk m l TD RO) in U2. discriminate U2.
        - pose proof (rk_node A g W rk m l TD ON RO n Hn). lia.
        - destruct (ON n' Hn') as [th [T I]]. destruct (thread_wp A g W TD th T) as [p [P1 P2]]. apply (in_map vx_of) in I. rewrite <- P2 in I. apply in_map_iff in I as [[v' ts'] [E' I']].
          specialize (ALL p P1). apply in_map_iff in ALL as [[v ts] [E I2]]. cbn [fst] in *. subst v v'.
          destruct (same_rank W rk (path_sorted g W rk m l GI RO) p (vx_of n') ts' (vx_of n) ts P1 I' I2) as [Z _]; [congruence|exact Z]. }
      assert (Hv : In (vx_of n) vs) by (apply V; split; [apply (node_vertex A g W TD ON n); exact Hn|exact R]).
      assert (VS : vs = [vx_of n]).
      { destruct vs as [|u1 [|u2 r]]; [destruct Hv|f_equal; apply U; left; reflexivity|]. exfalso. rewrite (U u1), (U u2) in NV by (cbn; auto). inversion NV as [|? ? N _]. apply N. left. reflexivity. }
      subst vs. unfold cells_of. cbn [flat_map length Nat.ltb Nat.leb orb]. rewrite app_nil_r. rewrite (proj2 (proj2 (tokens_full W (vx_of n))) ALL), Nat.eqb_refl. reflexivity.
  Qed.
End Table.

Theorem tied_table : forall cc topo ratio c o t A, topo_ok topo -> good_sigla c -> o_segmentation o = false -> o_near o = false ->
  collate cc topo ratio c o = Ok (OTable t) ->
  (forall ti g0, aligner_collate topo (o_filter o) (o_transp o) c = Ok (ti, g0) -> exists W, tied A g0 W /\ on_threads A /\ Forall2 held c W) ->
  length (threads A) = length c /\ length (t_rows t) = length c /\
  (forall th i j n n', In th (threads A) -> i < j -> nth_error th i = Some n -> nth_error th j = Some n' -> place_in A n < place_in A n') /\
  (forall k w th r, nth_error c k = Some w -> nth_error (threads A) k = Some th -> nth_error (t_rows t) k = Some r ->
    r_header r = w_sigil w /\ Forall2 (shows w) (map (at_column A th) (seq 1 (breadth A))) (r_cells r)) /\
  Forall2 (fun x col => c_variant col = false <-> exists n, place_in A n = x /\ forall th, In th (threads A) -> In n th) (seq 1 (breadth A)) (t_columns t).
Proof.
  intros cc topo ratio c o t A TO G Hs Hn H CL. destruct (collate_table_inv cc topo ratio _ o t H) as [g [r [H1 H2]]].
  unfold collate_graph in H1. apply bind_ok in H1 as [[ti g1] [HA H1]]. destruct (o_astar o); [discriminate|].
  rewrite Hn, Hs in H1. apply bind_ok in H1 as [r1 [HR H1]]. cbn [bind] in H1. apply ok_inj in H1. injection H1 as <- <-.
  destruct (CL ti g1 HA) as [W [TD [ON HE]]].
  destruct (ranking_spec topo g1 _ TO (td_graph _ _ _ TD)) as [rk [m [l [_ [R RO]]]]]. rewrite R in HR. apply ok_inj in HR. subst r1.
  rewrite (table_spec g1 _ rk m l (td_graph _ _ _ TD) RO) in H2. apply ok_inj in H2.
  assert (LW : length W = length c) by (symmetry; apply (Forall2_len _ _ _ HE)).
  assert (LT : length (threads A) = length c).
  { rewrite <- LW, <- (map_length (map vx_of)), <- (td_threads _ _ _ TD), map_length. reflexivity. }
  split; [exact LT|]. subst t. unfold the_table. cbn [t_rows t_columns]. rewrite !map_length. split; [reflexivity|]. split; [exact (places_up A g1 W rk m l TD ON RO)|]. split.
  - intros k w th r Hw Hth Hr. rewrite !nth_error_map, Hw in Hr. cbn [option_map] in Hr. injection Hr as <-. split; [reflexivity|].
    destruct (Forall2_at_l _ _ _ _ _ HE Hw) as [wp [Hwp [ts [p [EW [LP CF]]]]]].
    assert (ET : map fst (snd wp) = map vx_of th).
    { assert (Q : nth_error (map (map vx_of) (threads A)) k = Some (map fst (snd wp))) by (rewrite <- (td_threads _ _ _ TD); exact (map_nth_error _ _ _ Hwp)).
      rewrite nth_error_map, Hth in Q. cbn [option_map] in Q. congruence. }
    cbn [construct_row r_cells]. apply Forall2_pointwise; [rewrite !map_length, seq_length; symmetry; apply (any_ranks_length A g1 W rk m l TD ON RO)|].
    intros j x cl Hx Hc. rewrite !nth_error_map in *. destruct (nth_error (table_ranks rk m l) j) as [[r0 vs]|] eqn:ER; [|discriminate Hc]. cbn in Hc. injection Hc as <-.
    assert (Lj : j < breadth A) by (rewrite <- (any_ranks_length A g1 W rk m l TD ON RO); apply nth_error_Some; congruence).
    rewrite nth_error_seq in Hx by exact Lj. cbn [option_map Nat.add] in Hx. injection Hx as <-.
    destruct (any_ranks A g1 W rk m l TD RO j _ ER) as [E1 E2]. cbn [fst] in E1. subst r0.
    apply (shows_cell w ts p _ _ LP CF). rewrite <- EW. replace (w_sigil w) with (fst wp) by (rewrite EW; reflexivity).
    apply (cell_column A g1 W rk m l TD ON RO wp th j vs); [apply nth_error_In in Hwp; exact Hwp|apply nth_error_In in Hth; exact Hth|exact ET|exact E2].
  - apply Forall2_pointwise; [rewrite map_length, seq_length; symmetry; apply (any_ranks_length A g1 W rk m l TD ON RO)|].
    intros j x col Hx Hc. rewrite nth_error_map in Hc. destruct (nth_error (table_ranks rk m l) j) as [[r0 vs]|] eqn:ER; [|discriminate Hc]. cbn [option_map] in Hc. injection Hc as <-.
    assert (Lj : j < breadth A) by (rewrite <- (any_ranks_length A g1 W rk m l TD ON RO); apply nth_error_Some; congruence).
    rewrite nth_error_seq in Hx by exact Lj. cbn [Nat.add] in Hx. injection Hx as <-.
    destruct (any_ranks A g1 W rk m l TD RO j _ ER) as [E1 E2]. cbn [fst] in E1. subst r0.
    rewrite <- LW. apply (column_variant A g1 W rk m l TD ON RO j vs E2).
Qed.
Theorem prog_table : forall cc topo ratio c o t, topo_ok topo -> good_sigla c -> o_segmentation o = false -> o_near o = false -> o_filter o = None ->
  collate cc topo ratio c o = Ok (OTable t) ->
  (forall k, S k < length c -> clear (progressive (firstn (S k) (map readings c)))) ->
  let A := progressive (map readings c) in
  length (threads A) = length c /\ length (t_rows t) = length c /\
  (forall th i j n n', In th (threads A) -> i < j -> nth_error th i = Some n -> nth_error th j = Some n' -> place_in A n < place_in A n') /\
  (forall k w th r, nth_error c k = Some w -> nth_error (threads A) k = Some th -> nth_error (t_rows t) k = Some r ->
    r_header r = w_sigil w /\ Forall2 (shows w) (map (at_column A th) (seq 1 (breadth A))) (r_cells r)) /\
  Forall2 (fun x col => c_variant col = false <-> exists n, place_in A n = x /\ forall th, In th (threads A) -> In n th) (seq 1 (breadth A)) (t_columns t).
Proof.
  intros cc topo ratio c o t TO G Hs Hn Hf H CL A. apply (tied_table cc topo ratio c o t A TO G Hs Hn H). intros ti g0 HA. rewrite Hf in HA. apply (prog_collate topo c _ ti g0 TO G HA CL).
Qed.

(** ** The graph *)
Lemma held_stands : forall A g W w wp th, tied A g W -> In wp W -> held w wp -> map fst (snd wp) = map vx_of th -> stands_on g w (map vx_of th).
Proof.
  intros A g W w wp th TD Hp [ts [p [-> [LP CF]]]] E. pose proof (td_graph _ _ _ TD) as GI. cbn [snd] in E. rewrite (steps_fst _ _ LP) in E. rewrite <- E.
  split; [|split].
  - pose proof (gi_simple _ _ GI _ Hp) as NC. unfold chain in NC. cbn [snd] in NC. rewrite (steps_fst _ _ LP) in NC. inversion NC as [|? ? _ NC']; subst. apply NoDup_app_iff in NC'. apply NC'.
  - rewrite LP. symmetry. apply (Forall2_len _ _ _ CF).
  - intros i t v Ht Hv. destruct (Forall2_at_l _ _ _ _ _ CF Ht) as [t' [T1 T2]].
    assert (Hi : In (v, [t']) (steps ts p)).
    { unfold steps. apply (nth_error_In _ i). clear - T1 Hv. revert i ts T1 Hv. induction p as [|a p IH]; intros i ts T1 Hv; [destruct i; discriminate Hv|].
      destruct ts as [|b ts]; [destruct i; discriminate T1|]. destruct i as [|i]; cbn in *; [congruence|]. apply IH; assumption. }
    destruct (gi_on _ _ GI _ v [t'] Hp Hi) as [V _]. destruct (dget_Some_key _ nat_eqb_ok v (g_verts g) V) as [vx D]. exists vx, t'. split; [exact D|]. split; [|unfold came_from in T2; intuition congruence].
    rewrite (gi_tokens _ _ GI v vx D). apply tokens_on_In. exists (w_sigil w, steps ts p). split; [exact Hp|]. split; [reflexivity|].
    apply (In_dget _ nat_eqb_ok); [apply (path_uniq g W GI _ Hp)|exact Hi].
Qed.

Theorem tied_graph : forall cc topo ratio c o g A, topo_ok topo -> good_sigla c -> o_segmentation o = false ->
  collate cc topo ratio c o = Ok (OGraph g) ->
  (forall ti g0, aligner_collate topo (o_filter o) (o_transp o) c = Ok (ti, g0) -> exists W, tied A g0 W /\ on_threads A /\ Forall2 held c W) ->
  exists f : nat -> vid, (forall n n', f n = f n' -> n = n') /\
    (forall v, In v (vertices g) <-> v = v_start \/ v = v_end \/ exists n, n < length (node_words A) /\ v = f n) /\
    (forall n, f n <> v_start /\ f n <> v_end) /\
    (forall m n, edge g (f m) (f n) <-> In (m, n) (followed A)) /\
    length (threads A) = length c /\
    forall k w th, nth_error c k = Some w -> nth_error (threads A) k = Some th -> stands_on g w (map f th).
Proof.
  intros cc topo ratio c o g A TO G Hs H CL. destruct (collate_graph_inv cc topo ratio _ o g H) as [r H1].
  unfold collate_graph in H1. apply bind_ok in H1 as [[ti g1] [HA H1]]. destruct (o_astar o); [discriminate|].
  apply bind_ok in H1 as [r1 [HR H1]].
  assert (SV : g_verts g = g_verts g1 /\ g_edges g = g_edges g1).
  { rewrite Hs in H1. apply bind_ok in H1 as [[g2 r2] [HN H1]]. apply ok_inj in H1. injection H1 as <- <-. destruct (o_near o); [destruct (near_match_same _ _ _ _ _ _ HN) as [Q _]; split; [exact (f_equal g_verts Q)|exact (f_equal g_edges Q)]|].
    apply ok_inj in HN. injection HN as <- <-. auto. }
  clear H1 H. destruct SV as [SV SE].
  assert (EV : vertices g = vertices g1) by (unfold vertices; rewrite SV; reflexivity).
  assert (EE : forall u v, edge g u v <-> edge g1 u v) by (intros u v; unfold edge, edge_pairs; rewrite SE; reflexivity).
  assert (ES : forall w p, stands_on g1 w p -> stands_on g w p) by (intros w p; unfold stands_on; rewrite SV; auto).
  destruct (CL ti g1 HA) as [W [TD [ON HE]]]. pose proof (td_graph _ _ _ TD) as GI.
  assert (LW : length W = length c) by (symmetry; apply (Forall2_len _ _ _ HE)).
  exists vx_of. split; [exact vx_of_inj|]. split; [|split; [|split; [|split]]].
  - intros v. rewrite EV. split.
    + intros V. destruct (vertex_node A g1 W TD ON v V) as [?|[?|[n [? ?]]]]; eauto.
    + intros [->|[->|[n [L ->]]]]; [apply (start_In _ _ GI)|apply (end_In _ _ GI)|apply (node_vertex A g1 W TD ON n); exact L].
  - intros n. split; discriminate.
  - intros m n. rewrite EE. apply (edge_node A g1 W TD).
  - rewrite <- LW, <- (map_length (map vx_of)), <- (td_threads _ _ _ TD), map_length. reflexivity.
  - intros k w th Hw Hth. destruct (Forall2_at_l _ _ _ _ _ HE Hw) as [wp [Hwp HD]].
    assert (Q : nth_error (map (map vx_of) (threads A)) k = Some (map fst (snd wp))) by (rewrite <- (td_threads _ _ _ TD); exact (map_nth_error _ _ _ Hwp)).
    rewrite nth_error_map, Hth in Q. cbn [option_map] in Q. injection Q as Q. apply ES. apply (held_stands A g1 W w wp th TD); auto. apply nth_error_In in Hwp. exact Hwp.
Qed.
Theorem prog_graph : forall cc topo ratio c o g, topo_ok topo -> good_sigla c -> o_segmentation o = false -> o_filter o = None ->
  collate cc topo ratio c o = Ok (OGraph g) ->
  (forall k, S k < length c -> clear (progressive (firstn (S k) (map readings c)))) ->
  let A := progressive (map readings c) in
  exists f : nat -> vid, (forall n n', f n = f n' -> n = n') /\
    (forall v, In v (vertices g) <-> v = v_start \/ v = v_end \/ exists n, n < length (node_words A) /\ v = f n) /\
    (forall n, f n <> v_start /\ f n <> v_end) /\
    (forall m n, edge g (f m) (f n) <-> In (m, n) (followed A)) /\
    length (threads A) = length c /\
    forall k w th, nth_error c k = Some w -> nth_error (threads A) k = Some th -> stands_on g w (map f th).
Proof.
  intros cc topo ratio c o g TO G Hs Hf H CL A. apply (tied_graph cc topo ratio c o g A TO G Hs H). intros ti g0 HA. rewrite Hf in HA. apply (prog_collate topo c _ ti g0 TO G HA CL).
Qed.

(** ** The reference alignment *)
Lemma spelled : forall texts, Forall2 (fun text th => map (nth_error (node_words (progressive texts))) th = map Some text) texts (threads (progressive texts)).
Proof.
  intros texts. unfold progressive. fold nothing. induction texts as [|text texts IH] using rev_ind; [constructor|].
  rewrite fold_left_app. cbn [fold_left]. set (A := fold_left add_text texts nothing) in *.
  unfold add_text. cbv zeta. cbn [node_words threads]. set (L := map (old_node A text) (seq 0 (length text))). apply Forall2_app.
  - eapply Forall2_impl; [|exact IH]. intros tx th E. cbn beta in *. rewrite <- E. apply map_ext_in. intros n Hn. apply nth_error_app1.
    apply nth_error_Some. intros C. apply (in_map (nth_error (node_words A))) in Hn. rewrite E, C in Hn. apply in_map_iff in Hn as [? [Q _]]. discriminate Q.
  - constructor; [|constructor]. apply list_ext. intros i. rewrite !nth_error_map. assert (LL : length L = length text) by (unfold L; rewrite map_length, seq_length; reflexivity).
    destruct (nth_error (with_new (length (node_words A)) L) i) as [n|] eqn:E.
    + destruct (nth_error text i) as [s|] eqn:T.
      2:{ exfalso. apply nth_error_None in T. assert (i < length (with_new (length (node_words A)) L)) by (apply nth_error_Some; congruence). rewrite with_new_length in H. lia. }
      cbn [option_map]. f_equal. destruct (with_new_word L text _ i n s E T) as [K|[K1 [K2 K3]]].
      * unfold L in K. apply nth_map in K as [j [J1 J2]]. assert (Li : i < length text) by (apply nth_error_Some; congruence).
        rewrite nth_error_seq in J1 by exact Li. injection J1 as <-. cbn [Nat.add] in J2.
        assert (ST : nth_error (node_words A) n = Some s).
        { unfold old_node in J2. rewrite T in J2. destruct (List.find _ (meetings A text)) as [[y x]|]; [|discriminate J2]. destruct (existsb _ _); [discriminate J2|].
          apply find_some in J2 as [_ J2]. apply stands_iff in J2. apply J2. }
        rewrite nth_error_app1; [exact ST|]. apply nth_error_Some. congruence.
      * rewrite nth_error_app2 by exact K2. exact K3.
    + cbn [option_map]. apply nth_error_None in E. rewrite with_new_length, LL in E. apply nth_error_None in E. rewrite E. reflexivity.
Qed.

Definition clearb (A : alignment) : bool :=
  forallb (fun n => forallb (fun n' => (n =? n') || negb (place_in A n =? place_in A n') ||
    match nth_error (node_words A) n, nth_error (node_words A) n' with Some s, Some s' => negb (str_eqb s s') | _, _ => true end) (nodes A)) (nodes A).
Lemma clearb_clear : forall A, clearb A = true -> clear A.
Proof.
  intros A H n n' s E E' P. unfold clearb in H. rewrite forallb_forall in H.
  assert (N : In n (nodes A)) by (apply in_seq; split; [lia|apply nth_error_Some; congruence]).
  assert (N' : In n' (nodes A)) by (apply in_seq; split; [lia|apply nth_error_Some; congruence]).
  specialize (H n N). rewrite forallb_forall in H. specialize (H n' N'). rewrite E, E', P, Nat.eqb_refl in H. cbn [negb] in H.
  rewrite (proj2 (str_eqb_ok s s) eq_refl) in H. cbn [negb] in H. rewrite !orb_false_r in H. apply Nat.eqb_eq. exact H.
Qed.
