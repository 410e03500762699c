(** The collation step by step; independence of the topological order; segmentation
    compared with no segmentation. *)
From Verif Require Import Py TokenModel SuffixModel IndexModel GraphModel AlignModel TableModel NearModel ExportModel
  CollateModel Lib GraphSpec GraphProof MergeProof RankProof TableSpec TableProof SuffixSpec DC3Proof SuffixProof IndexProof BlockText InstProof CubeProof
  AlignProof AlignerProof CollateProof JoinProof CollateSpec ResultProof ErrorProof FactsProof OutputProof.
From Coq Require Import Permutation Relations QArith.
Open Scope list_scope.
Open Scope nat_scope.

Lemma stage_inv : forall topo filt c k g, topo_ok topo -> good_sigla c -> stage topo filt c k = Ok g ->
  exists W, graph_of g W /\ W <> [] /\ Forall2 carries (firstn (S k) c) W.
Proof.
  intros topo filt c k g TO [ND NE] H. unfold stage in H. apply bind_ok in H as [ti [P H]].
  pose proof (prepare_index_ok c ti ND P) as IX. pose proof (prepare_text_ok c ti P) as TX.
  destruct (ti_wits ti) as [|iw rest] eqn:E; [discriminate|]. apply bind_ok in H as [st [F H]]. apply bind_ok in H as [st' [A H]]. injection H as <-.
  destruct (first_step_inv c ti filt IX NE iw rest E) as [st1 [path [F1 F2]]]. rewrite F1 in F. injection F as <-.
  assert (G : forall k rest done st W st', ti_wits ti = done ++ rest -> W <> [] ->
    al_inv filt ti done st W -> foldM (next_step topo filt false ti) (firstn k rest) st = Ok st' ->
    exists W', al_inv filt ti (done ++ firstn k rest) st' W' /\ W' <> []).
  { clear - IX TX NE TO. induction k as [|k IH]; intros rest done st W st' DW NW AL H.
    - cbn in H. injection H as <-. exists W. rewrite app_nil_r. auto.
    - destruct rest as [|iw rest].
      + cbn in H. injection H as <-. exists W. cbn [firstn]. rewrite app_nil_r. auto.
      + cbn [firstn foldM] in H. apply bind_ok in H as [st1 [H1 H2]].
        destruct (next_step_inv c ti filt IX TX NE topo TO done iw rest st W DW NW AL) as [rk [mm [l [start [RK [RO [Hs [HP N]]]]]]]].
        destruct (next_step_cube ti filt topo st iw st1 _ RK H1) as [m Hm]. destruct (N m Hm) as [al [_ [st2 [N1 N2]]]].
        rewrite H1 in N1. injection N1 as <-. cbn [firstn].
        replace (done ++ iw :: rest) with ((done ++ [iw]) ++ rest) in DW by (rewrite <- app_assoc; reflexivity).
        apply (IH rest (done ++ [iw]) st1 _ st' DW) in N2; [|destruct W; discriminate|assumption].
        rewrite <- app_assoc in N2. exact N2. }
  destruct (G k rest [iw] st1 [(iw_sigil iw, steps (iw_toks iw) path)] st' E ltac:(discriminate) F2 A) as [W [W1 W2]].
  exists W. split; [apply (al_graph _ _ _ _ _ W1)|]. split; [assumption|].
  pose proof (al_paths _ _ _ _ _ W1) as PF. change ([iw] ++ firstn k rest) with (firstn (S k) (iw :: rest)) in PF.
  rewrite <- E, (ix_wits _ _ IX) in PF.
  assert (FS : forall n pos c, firstn n (stamped pos c) = stamped pos (firstn n c)).
  { clear. induction n as [|n IH]; intros pos c; [reflexivity|]. destruct c as [|w c]; [reflexivity|]. cbn [stamped firstn]. f_equal. apply IH. }
  rewrite FS in PF. apply paths_carry in PF. exact PF.
Qed.

(** The last stage is the graph of the aligner. *)
Lemma stage_last : forall topo filt c ti g, aligner_collate topo filt false c = Ok (ti, g) -> stage topo filt c (length c) = Ok g.
Proof.
  intros topo filt c ti g H. unfold aligner_collate in H. apply bind_ok in H as [ti' [P H]]. apply bind_ok in H as [st [A H]]. injection H as <- <-.
  unfold stage. rewrite P. cbn [bind]. unfold align_all in A.
  assert (L : length (ti_wits ti') = length c).
  { unfold prepare in P. apply bind_ok in P as [[[rg arr] o] [P1 P]].
    apply bind_ok in P as [sa [_ P]]. apply bind_ok in P as [bl [_ P]]. apply bind_ok in P as [inst [_ P]]. injection P as <-. cbn [ti_wits].
    unfold prepare_array in P1. clear A. revert P1. 
    assert (G : forall ws idx counter tap ranges arr0 out res, prepare_loop ws idx counter tap ranges arr0 out = Ok res -> length (snd res) = length out + length ws).
    { clear. induction ws as [|w ws IH]; intros idx counter tap ranges arr0 out res H; cbn [prepare_loop] in H.
      - injection H as <-. cbn. lia.
      - apply bind_ok in H as [? [_ H]]. apply IH in H. rewrite H, app_length. cbn. lia. }
    intros P1. apply bind_ok in P1 as [[[rg' arr'] out'] [P1 P2]]. apply bind_ok in P2 as [arr2 [_ P2]]. injection P2 as _ _ <-. apply G in P1. exact P1. }
  destruct (ti_wits ti') as [|w ws] eqn:E; [discriminate|]. apply bind_ok in A as [st1 [A1 A2]]. rewrite A1. cbn [bind].
  rewrite firstn_all2 by (cbn [length] in L; lia). rewrite A2. reflexivity.
Qed.

(** ** Independence of the topological order *)
Lemma rank_unique : forall g W rk1 m1 l1 rk2 m2 l2, graph_of g W -> W <> [] -> rank_ok g rk1 m1 l1 -> rank_ok g rk2 m2 l2 ->
  (forall v, In v (vertices g) -> rk1 v = rk2 v) /\ m1 = m2 /\ Permutation l1 l2.
Proof.
  intros g W rk1 m1 l1 rk2 m2 l2 GI NW R1 R2.
  assert (E : forall v, In v (vertices g) -> rk1 v = rk2 v).
  { intros v Hv. destruct (longest g W rk1 m1 l1 GI R1 NW v Hv) as [A1 B1]. destruct (longest g W rk2 m2 l2 GI R2 NW v Hv) as [A2 B2].
    apply Nat.le_antisymm; [apply B2|apply B1]; assumption. }
  split; [assumption|]. split.
  - rewrite <- (rank_end_max g W rk1 m1 l1 GI R1 NW), <- (rank_end_max g W rk2 m2 l2 GI R2 NW). f_equal. apply E. apply (end_In g W GI).
  - transitivity (vertices g); [apply (ro_perm _ _ _ _ R1)|symmetry; apply (ro_perm _ _ _ _ R2)].
Qed.

Lemma by_vertex_unique : forall g W rk1 m1 l1 rk2 m2 l2, graph_of g W -> W <> [] -> rank_ok g rk1 m1 l1 -> rank_ok g rk2 m2 l2 ->
  forall v, dget Nat.eqb v (by_vertex (ranking_for rk1 m1 l1)) = dget Nat.eqb v (by_vertex (ranking_for rk2 m2 l2)).
Proof.
  intros g W rk1 m1 l1 rk2 m2 l2 GI NW R1 R2 v. destruct (rank_unique _ _ _ _ _ _ _ _ GI NW R1 R2) as [E _].
  destruct (dget Nat.eqb v (by_vertex (ranking_for rk1 m1 l1))) as [n|] eqn:D1.
  - destruct (by_vertex_inv _ _ _ _ _ _ R1 D1) as [Hv ->]. rewrite (by_vertex_get _ _ _ _ _ R2 Hv). f_equal. apply E. assumption.
  - destruct (dget Nat.eqb v (by_vertex (ranking_for rk2 m2 l2))) as [n|] eqn:D2; [|reflexivity].
    destruct (by_vertex_inv _ _ _ _ _ _ R2 D2) as [Hv _]. rewrite (by_vertex_get _ _ _ _ _ R1 Hv) in D1. discriminate.
Qed.

Lemma match_cube_ext : forall ti sg varr r1 r2 filt, (forall v, dget Nat.eqb v r1 = dget Nat.eqb v r2) ->
  match_cube ti sg varr r1 filt = match_cube ti sg varr r2 filt.
Proof.
  intros ti sg varr r1 r2 filt E. unfold match_cube. destruct (start_token_position ti sg) as [start|]; [|reflexivity]. cbn [bind].
  apply foldM_ext. intros m [wst b] _. unfold cube_instance. destruct (block_instances (ti_sa ti) b) as [all|]; [|reflexivity]. cbn [bind].
  apply foldM_ext. intros m' gst _. apply foldM_ext. intros m'' i _. unfold cube_step.
  destruct (aget varr (gst + i)) as [[v|]|]; [|reflexivity|reflexivity]. cbn [bind]. unfold dgetE. rewrite E. reflexivity.
Qed.

Lemma mapM_ext : forall {A B} (f g : A -> res B) l, (forall a, In a l -> f a = g a) -> mapM f l = mapM g l.
Proof.
  intros A B f g l. induction l as [|a l IH]; intros H; [reflexivity|]. cbn [mapM]. rewrite (H a) by (left; reflexivity).
  rewrite IH by (intros; apply H; right; assumption). reflexivity.
Qed.

Section Order.
  Variables (topo1 topo2 : graph -> res (list vid)).
  Hypothesis T1 : topo_ok topo1.
  Hypothesis T2 : topo_ok topo2.

  Lemma next_step_order : forall filt detect ti st iw W, graph_of (a_graph st) W -> W <> [] ->
    next_step topo1 filt detect ti st iw = next_step topo2 filt detect ti st iw.
  Proof.
    intros filt detect ti st iw W GI NW.
    destruct (ranking_spec topo1 (a_graph st) W T1 GI) as [rk1 [m1 [l1 [_ [A1 R1]]]]].
    destruct (ranking_spec topo2 (a_graph st) W T2 GI) as [rk2 [m2 [l2 [_ [A2 R2]]]]].
    pose proof (by_vertex_unique _ _ _ _ _ _ _ _ GI NW R1 R2) as BV.
    unfold next_step. rewrite A1, A2. cbn [bind].
    rewrite (mapM_ext (fun v => dgetE Nat.eqb v (by_vertex (ranking_for rk1 m1 l1))) (fun v => dgetE Nat.eqb v (by_vertex (ranking_for rk2 m2 l2))))
      by (intros v _; unfold dgetE; rewrite BV; reflexivity).
    rewrite (match_cube_ext ti (iw_sigil iw) (a_varr st) _ _ filt BV). reflexivity.
  Qed.

  Lemma align_order : forall filt detect c, good_sigla c ->
    aligner_collate topo1 filt detect c = aligner_collate topo2 filt detect c.
  Proof.
    intros filt detect c [ND NE]. unfold aligner_collate. destruct (prepare c) as [ti|] eqn:P; [|reflexivity]. cbn [bind].
    pose proof (prepare_index_ok c ti ND P) as IX. pose proof (prepare_text_ok c ti P) as TX.
    f_equal. unfold align_all. destruct (ti_wits ti) as [|iw rest] eqn:E; [reflexivity|].
    destruct (first_step_inv c ti filt IX NE iw rest E) as [st1 [path [F1 F2]]]. rewrite F1. cbn [bind].
    assert (G : forall rest done st W, ti_wits ti = done ++ rest -> W <> [] -> al_inv filt ti done st W ->
      foldM (next_step topo1 filt detect ti) rest st = foldM (next_step topo2 filt detect ti) rest st).
    { clear E F1 F2 st1 path iw rest. induction rest as [|iw rest IH]; intros done st W DW NW AL; [reflexivity|]. cbn [foldM].
      rewrite (next_step_order filt detect ti st iw W (al_graph _ _ _ _ _ AL) NW).
      destruct (next_step topo2 filt detect ti st iw) as [st1|] eqn:S; [|reflexivity]. cbn [bind].
      assert (detect = false) as ->.
      { destruct detect; [|reflexivity]. exfalso. rewrite next_step_true in S. apply bind_ok in S as [? [_ S]]. discriminate. }
      destruct (next_step_inv c ti filt IX TX NE topo2 T2 done iw rest st W DW NW AL) as [rk [mm [l [start [RK [RO [Hs [HP N]]]]]]]].
      destruct (next_step_cube ti filt topo2 st iw st1 _ RK S) as [m Hm]. destruct (N m Hm) as [al [_ [st2 [N1 N2]]]].
      rewrite S in N1. injection N1 as <-.
      replace (done ++ iw :: rest) with ((done ++ [iw]) ++ rest) in DW by (rewrite <- app_assoc; reflexivity).
      apply (IH _ st1 _ DW) in N2; [assumption|destruct W; discriminate]. }
    apply (G rest [iw] st1 _ E) in F2; [exact F2|discriminate].
  Qed.
End Order.

Lemma Permutation_filter : forall {A} (f : A -> bool) l1 l2, Permutation l1 l2 -> Permutation (filter f l1) (filter f l2).
Proof.
  intros A f l1 l2 P. induction P; cbn [filter].
  - constructor.
  - destruct (f x); [apply perm_skip|]; assumption.
  - destruct (f x), (f y); try apply perm_swap; reflexivity.
  - transitivity (filter f l'); assumption.
Qed.

Lemma dget_perm : forall {K V} (eqb : K -> K -> bool) (OK : forall a b, eqb a b = true <-> a = b) (l1 l2 : list (K * V)) k,
  NoDup (map fst l1) -> Permutation l1 l2 -> dget eqb k l1 = dget eqb k l2.
Proof.
  intros K V eqb OK l1 l2 k N P. assert (N2 : NoDup (map fst l2)) by (apply (Permutation_NoDup (Permutation_map fst P)); assumption).
  destruct (dget eqb k l1) as [v|] eqn:D.
  - apply (dget_In _ OK) in D. symmetry. apply (In_dget _ OK); [assumption|]. apply (Permutation_in _ P). assumption.
  - destruct (dget eqb k l2) as [v|] eqn:D2; [|reflexivity]. apply (dget_In _ OK) in D2. apply (Permutation_in _ (Permutation_sym P)) in D2.
    apply (In_dget _ OK _ _ _ N) in D2. congruence.
Qed.

(** Sorting by siglum forgets the order. *)
Lemma str_ltb_irrefl : forall a, str_ltb a a = false.
Proof. induction a as [|x a IH]; [reflexivity|]. cbn [str_ltb]. rewrite N.ltb_irrefl, N.eqb_refl. assumption. Qed.
Lemma str_ltb_total : forall a b, str_ltb a b = false -> str_ltb b a = false -> a = b.
Proof.
  induction a as [|x a IH]; intros [|y b] H1 H2; cbn [str_ltb] in *; try discriminate; [reflexivity|].
  destruct (x <? y)%N eqn:L1; [discriminate|]. destruct (y <? x)%N eqn:L2; [discriminate|].
  apply N.ltb_ge in L1, L2. assert (x = y) by lia. subst y. rewrite N.eqb_refl in *. f_equal. auto.
Qed.
Lemma str_ltb_trans : forall a b c, str_ltb a b = true -> str_ltb b c = true -> str_ltb a c = true.
Proof.
  induction a as [|x a IH]; intros [|y b] [|z c] H1 H2; cbn [str_ltb] in *; try discriminate; try reflexivity.
  destruct (x <? y)%N eqn:L1.
  - apply N.ltb_lt in L1. destruct (y <? z)%N eqn:L2.
    + apply N.ltb_lt in L2. assert (L3 : (x <? z)%N = true) by (apply N.ltb_lt; lia). rewrite L3. reflexivity.
    + destruct (y =? z)%N eqn:E2; [|discriminate]. apply N.eqb_eq in E2. subst z. assert (L3 : (x <? y)%N = true) by (apply N.ltb_lt; lia). rewrite L3. reflexivity.
  - destruct (x =? y)%N eqn:E1; [|discriminate]. apply N.eqb_eq in E1. subst y.
    destruct (x <? z)%N; [reflexivity|]. destruct (x =? z)%N; [|discriminate]. eauto.
Qed.

Definition str_lt (a b : str) : Prop := str_ltb a b = true.

Lemma sort_items_perm : forall {V} (l : list (str * V)), Permutation (sort_items l) l.
Proof.
  intros V. assert (I : forall (x : str * V) l, Permutation (insert_item x l) (x :: l)).
  { intros x l. induction l as [|y l IH]; cbn [insert_item]; [reflexivity|]. destruct (str_ltb (fst y) (fst x)); [|reflexivity].
    transitivity (y :: x :: l); [apply perm_skip; assumption|apply perm_swap]. }
  induction l as [|x l IH]; [reflexivity|]. unfold sort_items in *. cbn [fold_right].
  transitivity (x :: fold_right insert_item [] l); [apply I|apply perm_skip; assumption].
Qed.

Lemma sort_items_sorted : forall {V} (l : list (str * V)), NoDup (map fst l) -> StronglySorted str_lt (map fst (sort_items l)).
Proof.
  intros V. assert (I : forall (x : str * V) l, ~ In (fst x) (map fst l) -> StronglySorted str_lt (map fst l) -> StronglySorted str_lt (map fst (insert_item x l))).
  { intros x l. induction l as [|y l IH]; intros N S; cbn [insert_item map]; [repeat constructor|].
    cbn [map] in S. inversion S as [|? ? S1 S2]; subst. cbn [map In] in N.
    destruct (str_ltb (fst y) (fst x)) eqn:L; cbn [map].
    - constructor; [apply IH; tauto|]. rewrite Forall_forall in *. intros k Hk. apply in_map_iff in Hk as [z [<- Hz]].
      apply insert_item_In in Hz as [->|Hz]; [exact L|]. apply S2. apply in_map. assumption.
    - assert (L' : str_lt (fst x) (fst y)).
      { unfold str_lt. destruct (str_ltb (fst x) (fst y)) eqn:L'; [reflexivity|]. exfalso. apply N. left. apply str_ltb_total; assumption. }
      constructor; [assumption|]. constructor; [exact L'|]. rewrite Forall_forall in *. intros k Hk. apply (str_ltb_trans _ (fst y)); [exact L'|]. apply S2. assumption. }
  induction l as [|x l IH]; intros N; [constructor|]. cbn [map] in N. inversion N as [|? ? N1 N2]; subst. unfold sort_items in *. cbn [fold_right].
  apply I; [|auto]. intros C. apply N1. apply in_map_iff in C as [y [<- Hy]]. apply (sort_items_In y l) in Hy. apply in_map. assumption.
Qed.

Lemma sorted_unique : forall {V} (l1 l2 : list (str * V)), StronglySorted str_lt (map fst l1) -> StronglySorted str_lt (map fst l2) ->
  Permutation l1 l2 -> l1 = l2.
Proof.
  intros V. induction l1 as [|x l1 IH]; intros l2 S1 S2 P; [apply Permutation_nil in P; congruence|].
  destruct l2 as [|y l2]; [symmetry in P; apply Permutation_nil in P; discriminate|].
  cbn [map] in *. inversion S1 as [|? ? S1a S1b]; subst. inversion S2 as [|? ? S2a S2b]; subst. rewrite Forall_forall in *.
  assert (x = y).
  { assert (X : In x (y :: l2)) by (apply (Permutation_in _ P); left; reflexivity).
    assert (Y : In y (x :: l1)) by (apply (Permutation_in _ (Permutation_sym P)); left; reflexivity).
    destruct X as [X|X]; [congruence|]. destruct Y as [Y|Y]; [congruence|].
    assert (A : str_lt (fst y) (fst x)) by (apply S2b; apply in_map; assumption).
    assert (B : str_lt (fst x) (fst y)) by (apply S1b; apply in_map; assumption).
    pose proof (str_ltb_trans _ _ _ A B) as C. rewrite str_ltb_irrefl in C. discriminate. }
  subst y. f_equal. apply IH; auto. apply (Permutation_cons_inv P).
Qed.

Lemma sort_items_unique : forall {V} (l1 l2 : list (str * V)), NoDup (map fst l1) -> Permutation l1 l2 -> sort_items l1 = sort_items l2.
Proof.
  intros V l1 l2 N P. assert (N2 : NoDup (map fst l2)) by (apply (Permutation_NoDup (Permutation_map fst P)); assumption).
  apply sorted_unique; [apply sort_items_sorted; assumption|apply sort_items_sorted; assumption|].
  rewrite !sort_items_perm. assumption.
Qed.

Section Tables.
  Variables (g : graph) (W : list wpath).
  Hypothesis GI : graph_of g W.
  Hypothesis NW : W <> [].

  Lemma tables_same : forall rk1 m1 l1 rk2 m2 l2 sigla, rank_ok g rk1 m1 l1 -> rank_ok g rk2 m2 l2 ->
    same_table (the_table W rk1 m1 l1 sigla) (the_table W rk2 m2 l2 sigla).
  Proof.
    intros rk1 m1 l1 rk2 m2 l2 sigla R1 R2. destruct (rank_unique _ _ _ _ _ _ _ _ GI NW R1 R2) as [E [Em P]]. subst m2.
    assert (F : Forall2 (fun x y => (exists k, In (k, snd x) (ranks_table rk1 m1 l1)) /\ Permutation (snd x) (snd y))
      (table_ranks rk1 m1 l1) (table_ranks rk2 m1 l2)).
    { unfold table_ranks, ranks_table, ranking_for. cbn [by_rank].
      assert (G : forall L, incl L (seq 0 m1) ->
        Forall2 (fun x y => (exists k, In (k, snd x) (map (fun r => (r, filter (fun v => rk1 v =? r) l1)) (seq 0 m1))) /\ Permutation (snd x) (snd y))
          (filter (fun rvs => existsb inner (snd rvs)) (map (fun r => (r, filter (fun v => rk1 v =? r) l1)) L))
          (filter (fun rvs => existsb inner (snd rvs)) (map (fun r => (r, filter (fun v => rk2 v =? r) l2)) L))).
      { induction L as [|r L IH]; intros I; [constructor|]. cbn [map filter snd].
        assert (PF : Permutation (filter (fun v => rk1 v =? r) l1) (filter (fun v => rk2 v =? r) l2)).
        { rewrite (filter_ext_in (fun v => rk1 v =? r) (fun v => rk2 v =? r)).
          - apply Permutation_filter. assumption.
          - intros v Hv. rewrite E; [reflexivity|]. apply (Permutation_in _ (ro_perm _ _ _ _ R1)). assumption. }
        assert (EX : existsb inner (filter (fun v => rk1 v =? r) l1) = existsb inner (filter (fun v => rk2 v =? r) l2)).
        { apply eq_true_iff_eq. rewrite !existsb_exists. split; intros [v [V1 V2]]; exists v; split; auto.
          - apply (Permutation_in _ PF). assumption.
          - apply (Permutation_in _ (Permutation_sym PF)). assumption. }
        rewrite <- EX. assert (IL : incl L (seq 0 m1)) by (intros x Hx; apply I; right; assumption).
        destruct (existsb inner (filter (fun v => rk1 v =? r) l1)); [|apply IH; assumption].
        constructor; [|apply IH; assumption]. cbn [snd]. split; [|assumption]. exists r. apply in_map_iff. exists r. split; [reflexivity|]. apply I. left. reflexivity. }
      apply G. apply incl_refl. }
    assert (C : Forall2 (fun c1 c2 => (c_variant c1 = c_variant c2 /\ Permutation (c_cells c1) (c_cells c2)) /\ NoDup (map fst (c_cells c1)))
      (map (mkcol W (length sigla)) (table_ranks rk1 m1 l1)) (map (mkcol W (length sigla)) (table_ranks rk2 m1 l2))).
    { induction F as [|x y lx ly [[k Hk] Hp] F IH]; cbn [map]; constructor; [|assumption].
      assert (PC : Permutation (cells_of W (snd x)) (cells_of W (snd y))) by (apply Permutation_flat_map; assumption).
      cbn [mkcol c_variant c_cells]. split; [split; [|assumption]|].
      - rewrite (Permutation_length Hp), (Permutation_length PC). reflexivity.
      - destruct (ranks_vs g W rk1 m1 l1 GI R1 k _ Hk) as [V1 V2].
        apply (cells_NoDup g W rk1 GI (path_sorted g W rk1 m1 l1 GI R1) (snd x) k V1). intros v Hv. apply V2 in Hv. tauto. }
    split.
    - cbn [the_table t_rows]. apply map_ext. intros sg. unfold construct_row. f_equal. clear - C. induction C as [|c1 c2 L1 L2 [[_ P] N] C IH]; [reflexivity|].
      cbn [map]. rewrite IH. f_equal. apply (dget_perm _ str_eqb_ok); assumption.
    - cbn [the_table t_columns]. clear - C. induction C as [|c1 c2 L1 L2 [P _] C IH]; constructor; assumption.
  Qed.

  Lemma the_table_keys : forall rk m l sigla, rank_ok g rk m l -> Forall (fun col => NoDup (map fst (c_cells col))) (t_columns (the_table W rk m l sigla)).
  Proof.
    intros rk m l sigla R. rewrite Forall_forall. intros col Hc. cbn [the_table t_columns] in Hc. apply in_map_iff in Hc as [[k vs] [<- Hk]].
    unfold table_ranks in Hk. apply filter_In in Hk as [Hk _]. cbn [mkcol c_cells snd]. destruct (ranks_vs g W rk m l GI R k _ Hk) as [V1 V2].
    apply (cells_NoDup g W rk GI (path_sorted g W rk m l GI R) vs k V1). intros v Hv. apply V2 in Hv. tauto.
  Qed.
End Tables.

(** Exports of tables that agree. *)
Section Same.
  Variables t1 t2 : table.
  Hypothesis ST : same_table t1 t2.
  Hypothesis NK : Forall (fun col => NoDup (map fst (c_cells col))) (t_columns t1).

  Lemma same_readings : Forall2 (fun c1 c2 => column_readings c1 = column_readings c2) (t_columns t1) (t_columns t2).
  Proof.
    destruct ST as [_ F]. clear ST. induction F as [|c1 c2 L1 L2 [_ P] F IH]; [constructor|]. inversion NK as [|? ? N1 N2]; subst.
    constructor; [|apply IH; assumption]. unfold column_readings. rewrite (sort_items_unique (c_cells c1) (c_cells c2)) by assumption. reflexivity.
  Qed.

  Lemma mapM_same : forall {A B} (f : A -> res B) l1 l2, Forall2 (fun a b => f a = f b) l1 l2 -> mapM f l1 = mapM f l2.
  Proof. intros A B f l1 l2 F. induction F as [|a b l1 l2 E F IH]; [reflexivity|]. cbn [mapM]. rewrite E, IH. reflexivity. Qed.

  Lemma same_xml : export_xml t1 = export_xml t2.
  Proof. unfold export_xml. rewrite (mapM_same column_readings _ _ same_readings). reflexivity. Qed.

  Lemma same_tei : forall cc b, export_tei cc b t1 = export_tei cc b t2.
  Proof.
    intros cc b. unfold export_tei, tei_items. destruct ST as [ER _]. rewrite ER.
    assert (E : mapM (tei_column cc (length (t_rows t2))) (t_columns t1) = mapM (tei_column cc (length (t_rows t2))) (t_columns t2)).
    { apply mapM_same. pose proof same_readings as F. revert F. generalize (t_columns t1), (t_columns t2). intros L1 L2 F. induction F as [|c1 c2 L1 L2 E F IH]; [constructor|constructor; [|assumption]].
      unfold tei_column. rewrite E. reflexivity. }
    rewrite E. reflexivity.
  Qed.

  Lemma same_csv : forall b, export_csv b t1 = export_csv b t2.
  Proof. intros b. unfold export_csv. destruct ST as [ER _]. rewrite ER. reflexivity. Qed.

  Lemma same_json : export_json false t1 = export_json false t2.
  Proof. unfold export_json. destruct ST as [ER _]. rewrite ER. reflexivity. Qed.

  Lemma same_vertical : forall ws, export_vertical_json t1 ws = export_vertical_json t2 ws.
  Proof.
    intros ws. unfold export_vertical_json. destruct ST as [_ F].
    assert (E1 : forall acc, fold_left (fun acc (_ : column) => fold_left add_siglum ws acc) (t_columns t1) acc = fold_left (fun acc (_ : column) => fold_left add_siglum ws acc) (t_columns t2) acc).
    { clear NK ST. induction F as [|c1 c2 L1 L2 E F IH]; intros acc; [reflexivity|]. cbn [fold_left]. apply IH. }
    rewrite E1. f_equal. f_equal. f_equal. f_equal. clear E1. revert NK. clear ST. induction F as [|c1 c2 L1 L2 [_ P] F IH]; intros NK; [reflexivity|].
    inversion NK as [|? ? N1 N2]; subst. cbn [map]. rewrite IH by assumption. f_equal. f_equal. apply map_ext. intros s. f_equal. apply (dget_perm _ str_eqb_ok); assumption.
  Qed.
End Same.

Lemma same_output_refl : forall x, same_output x x.
Proof.
  assert (R : forall t, same_table t t).
  { intros t. split; [reflexivity|]. induction (t_columns t) as [|c l IH]; constructor; auto. }
  intros x. destruct x; cbn [same_output]; auto.
Qed.

Section OrderResult.
  Variables (cc : cclass) (topo1 topo2 : graph -> res (list vid)) (ratio : str -> str -> Q).
  Hypothesis T1 : topo_ok topo1.
  Hypothesis T2 : topo_ok topo2.

  Theorem graph_order : forall c o g r1, good_sigla c -> o_near o = false -> collate_graph cc topo1 ratio c o = Ok (g, r1) ->
    exists r2, collate_graph cc topo2 ratio c o = Ok (g, r2).
  Proof.
    intros c o g r1 G Hn H. unfold collate_graph in *. pose proof G as [ND NE]. rewrite Hn in *.
    destruct (o_astar o); [discriminate|]. rewrite <- (align_order topo1 topo2 T1 T2) by assumption.
    apply bind_ok in H as [[ti g1] [H1 H]]. rewrite H1. cbn [bind].
    destruct (aligner_spec _ _ _ _ _ _ T1 ND NE H1) as [_ [_ [st [W0 [E [AL [NW CA]]]]]]]. subst g1.
    pose proof (al_graph _ _ _ _ _ AL) as GI. pose proof (one_token_paths _ _ (al_paths _ _ _ _ _ AL)) as ONE.
    apply bind_ok in H as [rk1 [_ H]]. cbn [bind] in H.
    destruct (ranking_spec topo2 (a_graph st) W0 T2 GI) as [rk [m [l [_ [R1 R2]]]]]. rewrite R1. cbn [bind].
    destruct (o_segmentation o).
    - apply bind_ok in H as [g' [J1 H]]. apply bind_ok in H as [r' [J2 H]]. injection H as -> _. rewrite J1. cbn [bind].
      destruct (join_spec cc (a_graph st) W0 GI ONE) as [g2 [W [part [J3 [J4 J5]]]]]. rewrite J1 in J3. injection J3 as <-.
      destruct (ranking_spec topo2 g W T2 (jo_graph _ _ _ _ _ _ J4)) as [rk' [m' [l' [_ [R1' R2']]]]]. rewrite R1'. cbn [bind]. eauto.
    - injection H as -> _. eauto.
  Qed.

  Lemma result_tables : forall c o g r1 r2, good_sigla c -> o_near o = false ->
    collate_graph cc topo1 ratio c o = Ok (g, r1) -> collate_graph cc topo2 ratio c o = Ok (g, r2) ->
    exists t1 t2, construct_table (map w_sigil c) g r1 = Ok t1 /\ construct_table (map w_sigil c) g r2 = Ok t2 /\ same_table t1 t2 /\
      Forall (fun col => NoDup (map fst (c_cells col))) (t_columns t1).
  Proof.
    intros c o g r1 r2 [ND NE] Hn H1 H2.
    destruct (result_spec cc topo1 ratio T1 c o g r1 ND NE H1) as [ti [st [W0 [W [part RS]]]]].
    destruct (result_spec cc topo2 ratio T2 c o g r2 ND NE H2) as [ti2 [st2 [W02 [W2 [part2 RS2]]]]].
    destruct (rs_near _ _ _ _ _ _ _ _ _ _ _ RS Hn) as [N0 [rk [m [l [RO ->]]]]].
    destruct (rs_near _ _ _ _ _ _ _ _ _ _ _ RS2 Hn) as [_ [rk2 [m2 [l2 [RO2 ->]]]]].
    pose proof (jo_graph _ _ _ _ _ _ (rs_joined _ _ _ _ _ _ _ _ _ _ _ RS)) as GI.
    assert (NN : without_near g = g) by (destruct g; cbn in N0; subst; reflexivity). rewrite NN in GI.
    assert (WN : W <> []) by (apply (carries_nonempty c); [apply (collate_nonempty cc topo1 ratio c o g _ H1)|apply (rs_carries _ _ _ _ _ _ _ _ _ _ _ RS)]).
    rewrite (table_spec g W rk m l GI RO), (table_spec g W rk2 m2 l2 GI RO2).
    eexists. eexists. split; [reflexivity|]. split; [reflexivity|]. split; [apply (tables_same g W GI WN); assumption|].
    apply (the_table_keys g W GI). assumption.
  Qed.

  Theorem output_order : forall c o x1, good_sigla c -> o_near o = false -> collate cc topo1 ratio c o = Ok x1 ->
    exists x2, collate cc topo2 ratio c o = Ok x2 /\ same_output x1 x2.
  Proof.
    intros c o x1 G Hn H. unfold collate in *. apply bind_ok in H as [[g r1] [H1 H]].
    destruct (graph_order c o g r1 G Hn H1) as [r2 H2]. rewrite H2. cbn [bind].
    destruct (result_tables c o g r1 r2 G Hn H1 H2) as [t1 [t2 [C1 [C2 [ST NK]]]]].
    unfold render in *. rewrite C1 in H. rewrite C2. cbn [bind] in *.
    rewrite <- (same_vertical t1 t2 ST NK), <- (same_json t1 t2 ST), <- (same_xml t1 t2 ST NK), <- (same_tei t1 t2 ST NK), <- !(same_csv t1 t2 ST).
    repeat match goal with |- context [if ?b then _ else _] => destruct b end;
      try discriminate;
      try (eexists; split; [exact H|apply same_output_refl]);
      try (injection H as <-; eexists; split; [reflexivity|exact ST]).
  Qed.
End OrderResult.

(** ** Segmentation compared with no segmentation *)
Section Seg.
  Variables (cc : cclass) (topo : graph -> res (list vid)) (ratio : str -> str -> Q).
  Hypothesis TO : topo_ok topo.

  Theorem segmentation_spec : forall c o g0 r0, good_sigla c -> o_near o = false ->
    collate_graph cc topo ratio c (set_segmentation o false) = Ok (g0, r0) ->
    exists g r W0 W part, collate_graph cc topo ratio c (set_segmentation o true) = Ok (g, r) /\
      Forall2 carries c W0 /\ graph_of g0 W0 /\ joined cc g0 W0 g W part /\
      (forall u w, In u (vertices g) -> ~ joinable g u w).
  Proof.
    intros c o g0 r0 [ND NE] Hn H. unfold collate_graph in *. cbn [set_segmentation o_astar o_filter o_transp o_near o_segmentation] in *.
    apply bind_ok in H as [[ti g1] [H1 H]]. destruct (o_astar o); [discriminate|]. rewrite H1. cbn [bind].
    destruct (aligner_spec _ _ _ _ _ _ TO ND NE H1) as [IX [TX [st [W0 [E [AL [NW CA]]]]]]]. subst g1.
    pose proof (al_graph _ _ _ _ _ AL) as GI. pose proof (one_token_paths _ _ (al_paths _ _ _ _ _ AL)) as ONE.
    apply bind_ok in H as [rk1 [H2 H]]. rewrite H2. rewrite Hn in *. cbn [bind] in *. injection H as <- <-.
    destruct (join_spec cc (a_graph st) W0 GI ONE) as [g2 [W [part [J3 [J4 J5]]]]]. rewrite J3. cbn [bind].
    destruct (ranking_spec topo g2 W TO (jo_graph _ _ _ _ _ _ J4)) as [rk' [m' [l' [_ [R1' R2']]]]]. rewrite R1'. cbn [bind].
    exists g2, (ranking_for rk' m' l'), W0, W, part. auto.
  Qed.
End Seg.
