(** From the aligner to the table: facts about the graph and the table of a collation. *)
From Verif Require Import Py Lib TokenModel SuffixModel IndexModel GraphModel AlignModel TableModel NearModel
  ExportModel CollateModel GraphSpec SuffixSpec TableSpec GraphProof MergeProof RankProof TableProof AlignProof
  BlockProof SuffixProof IndexProof BlockText InstProof CubeProof AlignerProof.
From Coq Require Import Permutation Sorted QArith.
Open Scope nat_scope.

Lemma next_step_detect : forall topo filt ti st iw st', next_step topo filt true ti st iw = Ok st' -> False.
Proof.
  intros topo filt ti st iw st' H. unfold next_step in H.
  repeat (apply bind_ok in H as [? [_ H]]; try match goal with x : (_ * _)%type |- _ => destruct x end). discriminate.
Qed.

Lemma align_all_detect : forall topo filt ti st, align_all topo filt true ti = Ok st -> align_all topo filt false ti = Ok st.
Proof.
  intros topo filt ti st H. unfold align_all in *. destruct (ti_wits ti) as [|w ws]; [discriminate|].
  apply bind_ok in H as [st1 [H1 H2]]. rewrite H1. cbn [bind]. destruct ws as [|w2 ws]; [assumption|].
  exfalso. cbn [foldM] in H2. apply bind_ok in H2 as [st2 [H2 _]]. apply next_step_detect in H2. assumption.
Qed.

(** ** The witnesses of the index and the input *)
Lemma stamp_came_from : forall sg ts pos, Forall2 (came_from sg) ts (stamp sg pos ts).
Proof. induction ts; intros pos; simpl; constructor; auto. split; reflexivity. Qed.

Lemma paths_carry : forall c pos W, Forall2 path_for (stamped pos c) W -> Forall2 carries c W.
Proof.
  induction c as [|w c IH]; intros pos W F; simpl in F; inversion F as [|iw wp d W0 [H1 [path [H2 H3]]] F']; subst; constructor.
  - split; [assumption|]. rewrite H3, steps_tokens by assumption. apply stamp_came_from.
  - apply IH in F'. assumption.
Qed.

Theorem aligner_spec : forall topo filt detect c ti g, topo_ok topo -> NoDup (map w_sigil c) -> ~ In [] (map w_sigil c) ->
  aligner_collate topo filt detect c = Ok (ti, g) ->
  index_ok c ti /\ index_text_ok ti /\
  exists st W, a_graph st = g /\ al_inv filt ti (ti_wits ti) st W /\ W <> [] /\ Forall2 carries c W.
Proof.
  intros topo filt detect c ti g TO ND NE H. unfold aligner_collate in H.
  apply bind_ok in H as [ti' [P H]]. apply bind_ok in H as [st [A H]]. injection H as <- <-.
  pose proof (prepare_index_ok c ti' ND P) as IX. pose proof (prepare_text_ok c ti' P) as TX.
  split; [assumption|]. split; [assumption|].
  assert (A' : align_all topo filt false ti' = Ok st) by (destruct detect; [apply align_all_detect|]; assumption).
  destruct (align_all_inv c ti' filt IX TX NE topo TO st A') as [W [W1 W2]].
  exists st, W. split; [reflexivity|]. split; [assumption|]. split; [assumption|].
  pose proof (al_paths _ _ _ _ _ W1) as PF. rewrite (ix_wits _ _ IX) in PF. apply paths_carry in PF. assumption.
Qed.

(** ** The table *)
Section TableOf.
  Variables (g : graph) (W : list wpath) (rk : vid -> nat) (m : nat) (l : list vid).
  Hypothesis GI : graph_of g W.
  Hypothesis RO : rank_ok g rk m l.

  Lemma path_sorted : forall p, In p W -> StronglySorted (fun a b : vid * list token => rk (fst a) < rk (fst b)) (snd p).
  Proof.
    intros p Hp. assert (G : forall l1 u l2 v l3, map fst (snd p) = l1 ++ u :: l2 ++ v :: l3 -> rk u < rk v).
    { intros l1 u l2 v l3 E. apply (chain_ranks g W rk m l GI RO p (v_start :: l1) u l2 v (l3 ++ [v_end]) Hp).
      unfold chain. rewrite E. simpl. rewrite <- !app_assoc. simpl. rewrite <- app_assoc. reflexivity. }
    apply StronglySorted_of_nth_error. intros i j a b Hij Ha Hb.
    assert (Ha' : nth_error (map fst (snd p)) i = Some (fst a)) by (rewrite nth_error_map, Ha; reflexivity).
    assert (Hb' : nth_error (map fst (snd p)) j = Some (fst b)) by (rewrite nth_error_map, Hb; reflexivity).
    apply nth_error_split in Hb' as [l1 [l2 [E L]]].
    rewrite E, nth_error_app1 in Ha' by lia. apply nth_error_split in Ha' as [l3 [l4 [E' _]]].
    apply (G l3 (fst a) l4 (fst b) l2). rewrite E, E', <- app_assoc. reflexivity.
  Qed.

  Definition ranks_table : list (nat * list vid) := by_rank (ranking_for rk m l).

  Lemma ranks_keys : StronglySorted lt (map fst ranks_table).
  Proof.
    unfold ranks_table, ranking_for. simpl. rewrite map_map. simpl. rewrite map_id.
    assert (G : forall n s, StronglySorted lt (seq s n)).
    { induction n; intros s; simpl; constructor; auto. rewrite Forall_forall. intros x Hx. apply in_seq in Hx. lia. }
    apply G.
  Qed.

  Lemma ranks_vs : forall r vs, In (r, vs) ranks_table -> NoDup vs /\ forall v, In v vs <-> In v (vertices g) /\ rk v = r.
  Proof.
    intros r vs H. unfold ranks_table, ranking_for in H. simpl in H. apply in_map_iff in H as [r' [E H]]. injection E as -> <-.
    assert (NL : NoDup l) by (apply (Permutation_NoDup (Permutation_sym (ro_perm _ _ _ _ RO))); apply (gi_verts _ _ GI)).
    split; [apply NoDup_filter; assumption|]. intros v. rewrite filter_In, Nat.eqb_eq.
    split; intros [H1 H2]; split; auto.
    - apply (Permutation_in _ (ro_perm _ _ _ _ RO)). assumption.
    - apply (Permutation_in _ (Permutation_sym (ro_perm _ _ _ _ RO))). assumption.
  Qed.

  Lemma ranks_all : forall v, In v (vertices g) -> exists vs, In (rk v, vs) ranks_table.
  Proof.
    intros v Hv. unfold ranks_table, ranking_for. simpl. eexists. apply in_map_iff. exists (rk v). split; [reflexivity|].
    apply in_seq. pose proof (ro_lt _ _ _ _ RO v Hv). lia.
  Qed.

  (** The columns with a vertex other than start and end. *)
  Definition table_ranks : list (nat * list vid) := filter (fun rvs => existsb inner (snd rvs)) ranks_table.

  Definition the_table (sigla : list str) : table :=
    {| t_columns := map (mkcol W (length sigla)) table_ranks;
       t_rows := map (construct_row (map (mkcol W (length sigla)) table_ranks)) sigla |}.

  Theorem table_spec : forall sigla, construct_table sigla g (ranking_for rk m l) = Ok (the_table sigla).
  Proof.
    intros sigla. unfold construct_table.
    rewrite (columns_spec g W rk ranks_table GI path_sorted ranks_vs). reflexivity.
  Qed.

  Theorem row_of : forall sigla p, In p W ->
    row_tokens (construct_row (t_columns (the_table sigla)) (fst p)) = flat_map snd (snd p).
  Proof.
    intros sigla p Hp. apply (row_lossless g W rk ranks_table GI path_sorted ranks_keys ranks_vs ranks_all (length sigla) p Hp).
  Qed.

  (** A cell of the table. *)
  Lemma cell_of : forall p r vs, In p W -> In (r, vs) ranks_table ->
    dget str_eqb (fst p) (cells_of W vs) = None \/
    exists v ts, In v vs /\ In (v, ts) (snd p) /\ dget str_eqb (fst p) (cells_of W vs) = Some ts.
  Proof.
    intros p r vs Hp Hr. destruct (dget str_eqb (fst p) (cells_of W vs)) as [ts|] eqn:D; auto. right.
    apply (dget_In _ str_eqb_ok) in D. apply in_flat_map in D as [v [Hv D]].
    apply tokens_on_In in D as [q [Q1 [Q2 Q3]]].
    assert (q = p) by (apply (sigil_unique g W GI); congruence). subst q.
    exists v, ts. apply (dget_In _ nat_eqb_ok) in Q3. auto.
  Qed.
End TableOf.

Section CollateGraph.
  Variable cc : cclass.
  Variable topo : graph -> res (list vid).
  Variable ratio : str -> str -> Q.
  Hypothesis TO : topo_ok topo.

  (** Without near matching and segmentation the graph is the aligner's graph. *)
  Theorem collate_graph_plain : forall c o g r, NoDup (map w_sigil c) -> ~ In [] (map w_sigil c) ->
    o_near o = false -> o_segmentation o = false ->
    collate_graph cc topo ratio c o = Ok (g, r) ->
    exists ti st W rk m l, index_ok c ti /\ a_graph st = g /\ al_inv (o_filter o) ti (ti_wits ti) st W /\ W <> [] /\
      Forall2 carries c W /\ rank_ok g rk m l /\ r = ranking_for rk m l.
  Proof.
    intros c o g r ND NE Hn Hs H. unfold collate_graph in H. apply bind_ok in H as [[ti g1] [H1 H]].
    destruct (o_astar o); [discriminate|].
    apply bind_ok in H as [rk1 [H2 H]]. rewrite Hn, Hs in H. cbn [bind] in H. injection H as <- <-.
    destruct (aligner_spec _ _ _ _ _ _ TO ND NE H1) as [IX [_ [st [W [E [AL [NW CA]]]]]]].
    pose proof (al_graph _ _ _ _ _ AL) as GI. rewrite E in GI.
    destruct (ranking_spec topo g1 W TO GI) as [rk [m [l [_ [R1 R2]]]]]. rewrite R1 in H2. injection H2 as <-.
    exists ti, st, W, rk, m, l. repeat (split; [assumption|]). reflexivity.
  Qed.
End CollateGraph.
