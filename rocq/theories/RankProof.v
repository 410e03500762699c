(** Proofs about VariantGraphRanking. *)
From Verif Require Import Py Lib TokenModel SuffixModel IndexModel GraphModel GraphSpec GraphProof MergeProof.
From Coq Require Import Relations.

Lemma NoDup_split_unique : forall {A} (a : A) l1 l2 l3 l4,
  NoDup (l1 ++ a :: l2) -> l1 ++ a :: l2 = l3 ++ a :: l4 -> l1 = l3 /\ l2 = l4.
Proof.
  induction l1 as [|x l1 IH]; intros l2 l3 l4 N E.
  - destruct l3 as [|y l3]; simpl in E.
    + injection E as ->. auto.
    + injection E as <- ->. simpl in N. inversion N; subst. exfalso. apply H1. apply in_or_app. right. left. reflexivity.
  - destruct l3 as [|y l3]; simpl in E.
    + injection E as -> <-. simpl in N. inversion N; subst. exfalso. apply H1. apply in_or_app. right. left. reflexivity.
    + injection E as <- E. simpl in N. inversion N; subst. destruct (IH l2 l3 l4) as [-> ->]; auto.
Qed.

Lemma before_prefix : forall {A} (u v : A) pre post,
  NoDup (pre ++ v :: post) -> before u v (pre ++ v :: post) -> In u pre.
Proof.
  intros A u v pre post N [l1 [l2 [l3 E]]].
  replace (l1 ++ u :: l2 ++ v :: l3) with ((l1 ++ u :: l2) ++ v :: l3) in E by (rewrite <- app_assoc; reflexivity).
  apply NoDup_split_unique in E as [-> _]; auto. apply in_or_app. right. left. reflexivity.
Qed.

Lemma in_edges_In : forall g v u l, In (u, v, l) (in_edges g v) -> edge g u v.
Proof.
  intros. unfold in_edges in H. apply filter_In in H as [H _]. unfold edge, edge_pairs.
  apply (in_map fst) in H. assumption.
Qed.

Lemma in_edges_edge : forall g u v, edge g u v -> exists l, In (u, v, l) (in_edges g v).
Proof.
  intros. unfold edge, edge_pairs in H. apply in_map_iff in H as [[[u' v'] l] [E H]]. simpl in E.
  injection E as -> ->. exists l. unfold in_edges. apply filter_In. split; auto. simpl. apply Nat.eqb_refl.
Qed.

Lemma in_edges_tgt : forall g v e, In e (in_edges g v) -> snd (fst e) = v.
Proof. intros. unfold in_edges in H. apply filter_In in H as [_ H]. apply Nat.eqb_eq. assumption. Qed.

(** The rank of a vertex computed from the ranks of its predecessors. *)
Definition rank_of (g : graph) (rk : vid -> nat) (v : vid) : nat :=
  fold_left (fun m e => Nat.max m (S (rk (fst (fst e))))) (in_edges g v) 0.

Lemma fold_max_ge : forall {A} (f : A -> nat) l m,
  m <= fold_left (fun m e => Nat.max m (f e)) l m /\
  (forall e, In e l -> f e <= fold_left (fun m e => Nat.max m (f e)) l m).
Proof.
  induction l as [|a l IH]; intros m; simpl; [split; [lia|contradiction]|].
  destruct (IH (Nat.max m (f a))) as [H1 H2]. split; [lia|].
  intros e [<-|H]; [lia|]. apply H2. assumption.
Qed.

Lemma fold_max_attained : forall {A} (f : A -> nat) l m,
  fold_left (fun m e => Nat.max m (f e)) l m = m \/
  exists e, In e l /\ fold_left (fun m e => Nat.max m (f e)) l m = f e.
Proof.
  induction l as [|a l IH]; intros m; simpl; auto.
  destruct (IH (Nat.max m (f a))) as [H|[e [H1 H2]]].
  - rewrite H. destruct (Nat.max_dec m (f a)) as [E|E]; rewrite E; eauto.
  - right. eauto.
Qed.

Lemma rank_of_edge : forall g rk u v, edge g u v -> S (rk u) <= rank_of g rk v.
Proof.
  intros. apply in_edges_edge in H as [l H].
  destruct (fold_max_ge (fun e : vid * vid * str => S (rk (fst (fst e)))) (in_edges g v) 0) as [_ H2].
  apply H2 in H. assumption.
Qed.

Lemma rank_of_pos : forall g rk v k, rank_of g rk v = S k -> exists u, edge g u v /\ rk u = k.
Proof.
  intros. unfold rank_of in H.
  destruct (fold_max_attained (fun e : vid * vid * str => S (rk (fst (fst e)))) (in_edges g v) 0)
    as [E|[e [E1 E2]]].
  - rewrite E in H. discriminate.
  - rewrite E2 in H. destruct e as [[u w] l]. simpl in H. exists u. split; [|lia].
    pose proof (in_edges_tgt _ _ _ E1) as T. simpl in T. subst w. eapply in_edges_In; eauto.
Qed.

Lemma rank_of_ext : forall g rk rk' v, (forall u, edge g u v -> rk u = rk' u) -> rank_of g rk v = rank_of g rk' v.
Proof.
  intros. unfold rank_of.
  assert (G : forall l m, (forall e, In e l -> In e (in_edges g v)) ->
    fold_left (fun m e => Nat.max m (S (rk (fst (fst e))))) l m =
    fold_left (fun m e => Nat.max m (S (rk' (fst (fst e))))) l m).
  { induction l as [|e l IH]; intros m Hl; simpl; auto. rewrite H.
    - apply IH. intros. apply Hl. right. assumption.
    - destruct e as [[u w] lb]. simpl. pose proof (Hl _ (or_introl eq_refl)) as I.
      pose proof (in_edges_tgt _ _ _ I) as T. simpl in T. subst w. eapply in_edges_In; eauto. }
  apply G. auto.
Qed.

Lemma dset_map_seq : forall (F : nat -> list vid) m s k x, s <= k < s + m ->
  dset Nat.eqb k x (map (fun r => (r, F r)) (seq s m)) =
  map (fun r => (r, if r =? k then x else F r)) (seq s m).
Proof.
  induction m; intros s k x H; [lia|]. simpl. destruct (k =? s) eqn:E.
  - apply Nat.eqb_eq in E. subst. rewrite Nat.eqb_refl. f_equal. apply map_ext_in.
    intros r Hr. apply in_seq in Hr. destruct (r =? s) eqn:E; auto. apply Nat.eqb_eq in E. lia.
  - rewrite (Nat.eqb_sym s k), E. f_equal. apply IHm. apply Nat.eqb_neq in E. lia.
Qed.

Lemma dget_map_seq : forall {V} (F : nat -> V) m s k, 
  dget Nat.eqb k (map (fun r => (r, F r)) (seq s m)) = if (s <=? k) && (k <? s + m) then Some (F k) else None.
Proof.
  induction m; intros s k; simpl.
  - destruct (s <=? k) eqn:E1, (k <? s + 0) eqn:E2; auto.
    apply Nat.leb_le in E1. apply Nat.ltb_lt in E2. lia.
  - destruct (k =? s) eqn:E.
    + apply Nat.eqb_eq in E. subst. rewrite Nat.leb_refl. simpl.
      assert (s <? s + S m = true) by (apply Nat.ltb_lt; lia). rewrite H. reflexivity.
    + rewrite IHm. apply Nat.eqb_neq in E. destruct (S s <=? k) eqn:E1.
      * apply Nat.leb_le in E1. assert (s <=? k = true) by (apply Nat.leb_le; lia). rewrite H.
        replace (S s + m) with (s + S m) by lia. reflexivity.
      * apply Nat.leb_gt in E1. assert (s <=? k = false) by (apply Nat.leb_gt; lia). rewrite H. reflexivity.
Qed.

Lemma dget_map : forall {A V} (eqb : A -> A -> bool) (ok : forall a b, eqb a b = true <-> a = b) (F : A -> V) l k,
  In k l -> dget eqb k (map (fun v => (v, F v)) l) = Some (F k).
Proof.
  induction l as [|a l IH]; intros k H; [contradiction|]. simpl.
  destruct (eqb k a) eqn:E.
  - apply ok in E. subst. reflexivity.
  - destruct H as [->|H]; auto. rewrite (eqb_refl' _ ok) in E. discriminate.
Qed.

Lemma filter_ext_In : forall {A} (f g : A -> bool) l, (forall x, In x l -> f x = g x) -> filter f l = filter g l.
Proof. induction l; simpl; intros; auto. rewrite H by auto. rewrite IHl by auto. reflexivity. Qed.

Definition ranking_for (rk : vid -> nat) (m : nat) (l : list vid) : ranking :=
  {| by_vertex := map (fun v => (v, rk v)) l;
     by_rank := map (fun r => (r, filter (fun v => rk v =? r) l)) (seq 0 m) |}.

Lemma rank_fold : forall g l,
  NoDup l -> (forall u v, edge g u v -> In v l -> before u v l) ->
  exists rk m, foldM (rank_step g) l {| by_vertex := []; by_rank := [] |} = Ok (ranking_for rk m l) /\
    (forall v, In v l -> rk v < m) /\
    (forall r, r < m -> exists v, In v l /\ rk v = r) /\
    (forall v, In v l -> rk v = rank_of g rk v).
Proof.
  intros g l ND HB.
  destruct (foldM_inv (rank_step g) (fun pre r => exists rk m, r = ranking_for rk m pre /\
    (forall v, In v pre -> rk v < m) /\
    (forall r, r < m -> exists v, In v pre /\ rk v = r) /\
    (forall v, In v pre -> rk v = rank_of g rk v)) l {| by_vertex := []; by_rank := [] |})
    as [r [H1 [rk [m [H2 H3]]]]].
  - exists (fun _ => 0), 0. repeat split; intros; try contradiction; lia.
  - intros pre v b [post El] [rk [m [-> [P1 [P2 P3]]]]].
    assert (NDs : NoDup (pre ++ v :: post)) by (rewrite <- El; assumption).
    assert (Hv : ~ In v pre).
    { apply NoDup_remove_2 in NDs. rewrite in_app_iff in NDs. tauto. }
    assert (PU : forall u, edge g u v -> In u pre).
    { intros u Hu. apply (before_prefix u v pre post); auto. rewrite <- El. apply HB; auto.
      rewrite El. apply in_or_app. right. left. reflexivity. }
    set (k := rank_of g rk v).
    assert (F : foldM (fun m e => ru <- dgetE Nat.eqb (fst (fst e)) (by_vertex (ranking_for rk m pre)) ;;
                  Ok (Nat.max m (S ru))) (in_edges g v) 0 = Ok k).
    { apply foldM_ok_fold_left. intros b [[u w] lb] He. simpl.
      pose proof (in_edges_tgt _ _ _ He) as T. simpl in T. subst w.
      apply in_edges_In in He. apply PU in He.
      unfold dgetE. rewrite (dget_map Nat.eqb nat_eqb_ok) by assumption. reflexivity. }
    unfold rank_step. simpl by_vertex in F. simpl by_vertex at 1. rewrite F. simpl.
    assert (KM : k <= m).
    { destruct k as [|k'] eqn:EK; [lia|]. destruct (rank_of_pos g rk v k' EK) as [u [U1 U2]].
      apply PU in U1. apply P1 in U1. lia. }
    set (rk' := fun w => if w =? v then k else rk w).
    assert (Rpre : forall w, In w pre -> rk' w = rk w).
    { intros w Hw. unfold rk'. destruct (w =? v) eqn:E; auto. apply Nat.eqb_eq in E. subst. contradiction. }
    assert (Rv : rk' v = k) by (unfold rk'; rewrite Nat.eqb_refl; reflexivity).
    assert (RR : forall w, In w pre \/ w = v -> rank_of g rk' w = rank_of g rk w).
    { intros w Hw. apply rank_of_ext. intros u Hu. apply Rpre. destruct Hw as [Hw| ->]; auto.
      assert (before u w l). { apply HB; auto. rewrite El. apply in_or_app. auto. }
      apply in_split in Hw as [p1 [p2 ->]]. apply in_or_app. left.
      apply (before_prefix u w p1 (p2 ++ v :: post)).
      - rewrite app_comm_cons, app_assoc. assumption.
      - replace (p1 ++ w :: p2 ++ v :: post) with l; auto. rewrite El, <- app_assoc. reflexivity. }
    rewrite dget_map_seq. simpl (0 <=? k). simpl (0 + m).
    eexists. split; [reflexivity|]. exists rk', (Nat.max m (S k)). split; [|split; [|split]].
    + unfold ranking_for. f_equal.
      * rewrite (dset_new _ nat_eqb_ok) by (rewrite map_map; simpl; rewrite map_id; assumption).
        rewrite map_app. simpl. rewrite Rv. f_equal. apply map_ext_in. intros w Hw. rewrite Rpre; auto.
      * assert (FE : forall r, filter (fun w => rk' w =? r) (pre ++ [v]) =
                               filter (fun w => rk w =? r) pre ++ (if k =? r then [v] else [])).
        { intros r. rewrite filter_app. f_equal.
          - apply filter_ext_In. intros w Hw. rewrite Rpre; auto.
          - simpl. rewrite Rv. reflexivity. }
        destruct (k <? m) eqn:E.
        -- apply Nat.ltb_lt in E. replace (Nat.max m (S k)) with m by lia. simpl.
           rewrite dset_map_seq by lia. apply map_ext. intros r. rewrite FE.
           destruct (r =? k) eqn:Er.
           ++ apply Nat.eqb_eq in Er. subst r. rewrite Nat.eqb_refl. reflexivity.
           ++ rewrite (Nat.eqb_sym k r), Er, app_nil_r. reflexivity.
        -- apply Nat.ltb_ge in E. assert (k = m) by lia. simpl.
           rewrite (dset_new _ nat_eqb_ok).
           2:{ rewrite map_map. simpl. rewrite map_id. rewrite in_seq. lia. }
           replace (Nat.max m (S k)) with (m + 1) by lia. rewrite seq_app, map_app. simpl. f_equal.
           ++ apply map_ext_in. intros r Hr. apply in_seq in Hr. rewrite FE.
              assert (k =? r = false) by (apply Nat.eqb_neq; lia). rewrite H0, app_nil_r. reflexivity.
           ++ rewrite FE. rewrite H, Nat.eqb_refl. f_equal. f_equal. symmetry.
              assert (filter (fun w => rk w =? m) pre = []).
              { clear - P1. induction pre as [|a pre IH]; auto. simpl.
                assert (rk a < m) by (apply P1; left; reflexivity).
                assert (rk a =? m = false) by (apply Nat.eqb_neq; lia). rewrite H0. apply IH.
                intros. apply P1. right. assumption. }
              rewrite H0. reflexivity.
    + intros w Hw. apply in_app_or in Hw as [Hw|[<-|[]]].
      * rewrite Rpre by assumption. apply P1 in Hw. lia.
      * rewrite Rv. lia.
    + intros r Hr. destruct (lt_dec r m) as [L|L].
      * destruct (P2 r L) as [w [W1 W2]]. exists w. split; [apply in_or_app; auto|]. rewrite Rpre; auto.
      * exists v. split; [apply in_or_app; right; left; reflexivity|]. rewrite Rv. lia.
    + intros w Hw. apply in_app_or in Hw as [Hw|[<-|[]]].
      * rewrite Rpre by assumption. rewrite RR by auto. apply P3. assumption.
      * rewrite Rv, RR by auto. reflexivity.
  - exists rk, m. subst r. intuition.
Qed.

Record rank_ok (g : graph) (rk : vid -> nat) (m : nat) (l : list vid) : Prop := {
  ro_perm : Permutation l (vertices g);
  ro_lt : forall v, In v (vertices g) -> rk v < m;
  ro_onto : forall r, r < m -> exists v, In v (vertices g) /\ rk v = r;
  ro_eq : forall v, In v (vertices g) -> rk v = rank_of g rk v;
  ro_edge : forall u v, edge g u v -> rk u < rk v
}.

Lemma before_In : forall {A} (u v : A) l, before u v l -> In u l /\ In v l.
Proof.
  intros A u v l [l1 [l2 [l3 ->]]]. split; apply in_or_app; right; simpl; auto.
  right. apply in_or_app. right. left. reflexivity.
Qed.

Theorem ranking_spec : forall topo g W, topo_ok topo -> graph_of g W ->
  exists rk m l, topo g = Ok l /\ ranking_of topo g = Ok (ranking_for rk m l) /\ rank_ok g rk m l.
Proof.
  intros topo g W T GI.
  destruct (T g) as [l [T1 [T2 T3]]].
  - apply (gi_verts _ _ GI).
  - intros u v. apply (graph_edge_verts g W u v GI).
  - apply (gi_edges_nodup _ _ GI).
  - apply (gi_acyclic _ _ GI).
  - assert (ND : NoDup l) by (apply Permutation_NoDup with (vertices g); [symmetry; assumption | apply (gi_verts _ _ GI)]).
    destruct (rank_fold g l ND) as [rk [m [R1 [R2 [R3 R4]]]]].
    { intros u v H _. apply T3. assumption. }
    exists rk, m, l. split; auto. split.
    + unfold ranking_of. rewrite T1. simpl. rewrite R1. simpl.
      rewrite foldM_ok_fold_left with (g := fun r _ => r).
      * f_equal. induction (rev l); simpl; auto.
      * intros b x _. unfold in_near_edges. rewrite (gi_near _ _ GI). reflexivity.
    + assert (IL : forall v, In v l <-> In v (vertices g)).
      { intros v. split; apply Permutation_in; [assumption | symmetry; assumption]. }
      constructor; auto.
      * intros v H. apply R2. apply IL. assumption.
      * intros r H. destruct (R3 r H) as [v [V1 V2]]. exists v. rewrite <- IL. auto.
      * intros v H. apply R4. apply IL. assumption.
      * intros u v H. pose proof (rank_of_edge g rk u v H). rewrite <- R4 in H0; [lia|].
        apply T3 in H. apply before_In in H as [_ H]. assumption.
Qed.

Lemma chain_split : forall (p : wpath) v, In v (map fst (snd p)) ->
  exists l1 l2, chain p = v_start :: l1 ++ v :: l2 ++ [v_end].
Proof.
  intros p v H. apply in_split in H as [l1 [l2 E]]. exists l1, l2. unfold chain. rewrite E.
  rewrite <- app_assoc. reflexivity.
Qed.

(** Along a chain the ranks grow. *)
Lemma chain_before : forall (rk : vid -> nat) (l : list vid),
  (forall u v, In (u, v) (pairs l) -> rk u < rk v) ->
  forall l1 u l2 v l3, l = l1 ++ u :: l2 ++ v :: l3 -> rk u < rk v.
Proof.
  intros rk l H l1 u l2. revert l1 u. induction l2 as [|w l2 IH]; intros l1 u v l3 E.
  - apply H. apply pairs_In. exists l1, l3. assumption.
  - assert (rk u < rk w). { apply H. apply pairs_In. exists l1, (l2 ++ v :: l3). assumption. }
    assert (rk w < rk v). { apply (IH (l1 ++ [u]) w v l3). rewrite E. rewrite <- app_assoc. reflexivity. }
    lia.
Qed.

Section Ranked.
  Variables (g : graph) (W : list wpath) (rk : vid -> nat) (m : nat) (l : list vid).
  Hypothesis GI : graph_of g W.
  Hypothesis RO : rank_ok g rk m l.
  Hypothesis NE : W <> [].

  Lemma some_path : exists p, In p W.
  Proof. clear GI. destruct W as [|p W']; [congruence|]. exists p. left. reflexivity. Qed.

  Lemma chain_ranks : forall p l1 u l2 v l3, In p W -> chain p = l1 ++ u :: l2 ++ v :: l3 -> rk u < rk v.
  Proof.
    intros. apply (chain_before rk (chain p)) with l1 l2 l3; auto.
    intros a b Hab. apply (ro_edge _ _ _ _ RO). apply (graph_edge_path g W); eauto.
  Qed.

  Lemma has_in_edge : forall v, In v (vertices g) -> v <> v_start -> exists u, edge g u v.
  Proof.
    intros v Hv Hn. assert (exists p, In p W /\ In v (map fst (snd p) ++ [v_end])) as [p [Hp Hi]].
    { destruct (gi_cover _ _ GI v Hv) as [->|[->|[p [ts [H1 H2]]]]].
      - congruence.
      - destruct some_path as [p Hp]. exists p. split; [assumption|].
        apply in_or_app. right. left. reflexivity.
      - exists p. split; auto. apply in_or_app. left. apply (in_map fst) in H2. assumption. }
    apply in_split in Hi as [l1 [l2 E]].
    assert (exists l0 u, v_start :: l1 = l0 ++ [u]) as [l0 [u Eu]].
    { destruct (exists_last (l := v_start :: l1)) as [l0 [u Eu]]; [discriminate|]. eauto. }
    exists u. apply (graph_edge_path g W); auto. exists p. split; auto.
    apply pairs_In. exists l0, l2. unfold chain. rewrite E.
    change (v_start :: l1 ++ v :: l2) with ((v_start :: l1) ++ v :: l2). rewrite Eu, <- app_assoc. reflexivity.
  Qed.

  Lemma start_In : In v_start (vertices g).
  Proof. pose proof (gi_start _ _ GI) as H. apply (dget_In _ nat_eqb_ok) in H. apply (in_map fst) in H. assumption. Qed.
  Lemma end_In : In v_end (vertices g).
  Proof. pose proof (gi_end _ _ GI) as H. apply (dget_In _ nat_eqb_ok) in H. apply (in_map fst) in H. assumption. Qed.

  Lemma no_edge_to_start : forall u, ~ edge g u v_start.
  Proof.
    intros u H. apply (graph_edge_path g W) in H as [p [H1 H2]]; auto.
    apply pairs_In in H2 as [l1 [l2 E]]. pose proof (gi_simple _ _ GI p H1) as N. rewrite E in N.
    unfold chain in E. destruct l1 as [|a l1]; simpl in E.
    - injection E as E1 E2. subst u. simpl in N. inversion N as [|? ? N1 N2]; subst. apply N1. left. reflexivity.
    - injection E as E1 E2. subst a. simpl in N. inversion N as [|? ? N1 N2]; subst. apply N1.
      apply in_or_app. right. right. left. reflexivity.
  Qed.

  Lemma rank_start : rk v_start = 0.
  Proof.
    rewrite (ro_eq _ _ _ _ RO) by apply start_In.
    destruct (rank_of g rk v_start) eqn:E; auto. apply rank_of_pos in E as [u [H _]].
    apply no_edge_to_start in H. contradiction.
  Qed.

  Lemma rank_zero : forall v, In v (vertices g) -> rk v = 0 -> v = v_start.
  Proof.
    intros v Hv H0. destruct (Nat.eq_dec v v_start); auto.
    destruct (has_in_edge v Hv n) as [u Hu]. apply (ro_edge _ _ _ _ RO) in Hu. lia.
  Qed.

  Lemma rank_le_end : forall v, In v (vertices g) -> v <> v_end -> rk v < rk v_end.
  Proof.
    intros v Hv Hn. destruct (gi_cover _ _ GI v Hv) as [->|[->|[p [ts [H1 H2]]]]].
    - destruct some_path as [p Hp].
      apply (chain_ranks p [] v_start (map fst (snd p)) v_end []); [assumption|].
      reflexivity.
    - congruence.
    - apply (in_map fst) in H2. simpl in H2. destruct (chain_split p v H2) as [l1 [l2 E]].
      apply (chain_ranks p (v_start :: l1) v l2 v_end []); auto.
  Qed.

  Lemma rank_end_max : S (rk v_end) = m.
  Proof.
    pose proof (ro_lt _ _ _ _ RO v_end end_In).
    destruct (Nat.eq_dec (S (rk v_end)) m); auto.
    destruct (ro_onto _ _ _ _ RO (m - 1)) as [v [V1 V2]]; [lia|].
    destruct (Nat.eq_dec v v_end); [subst; lia|]. apply rank_le_end in V1; auto. lia.
  Qed.

  Lemma rank_last : forall v, In v (vertices g) -> rk v = rk v_end -> v = v_end.
  Proof.
    intros v Hv H. destruct (Nat.eq_dec v v_end); auto. apply rank_le_end in Hv; auto. lia.
  Qed.

  Lemma longest : longest_from_start g rk.
  Proof.
    intros v Hv. split.
    - remember (rk v) as k eqn:E. revert v Hv E. induction k as [|k IH]; intros v Hv E.
      + rewrite (rank_zero v Hv) by auto. constructor.
      + rewrite (ro_eq _ _ _ _ RO v Hv) in E. symmetry in E. apply rank_of_pos in E as [u [U1 U2]].
        apply pl_snoc with u; auto. apply IH; auto. apply (graph_edge_verts g W u v GI U1).
    - intros n H. pose proof rank_start as R0.
      assert (G : forall n a b, path_len g n a b -> rk a + n <= rk b).
      { clear - RO. induction 1; [lia|]. apply (ro_edge _ _ _ _ RO) in H0. lia. }
      apply G in H. lia.
  Qed.
End Ranked.
