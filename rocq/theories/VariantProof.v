(** Why a column is marked variant. *)
From Verif Require Import Py TokenModel SuffixModel IndexModel GraphModel AlignModel TableModel NearModel ExportModel
  CollateModel Lib GraphSpec GraphProof MergeProof RankProof TableSpec TableProof SuffixSpec SuffixProof IndexProof BlockText InstProof CubeProof
  AlignProof AlignerProof CollateProof JoinProof CollateSpec ResultProof ErrorProof FactsProof OutputProof.
From Coq Require Import Permutation Relations QArith.
Open Scope list_scope.
Open Scope nat_scope.

Section Variant.
  Variables (g : graph) (W : list wpath) (rk : vid -> nat) (m : nat) (l : list vid).
  Hypothesis GI : graph_of g W.
  Hypothesis RO : rank_ok g rk m l.
  Hypothesis NW : W <> [].

  Lemma rank_alone : forall r vs v, In (r, vs) (ranks_table rk m l) -> existsb inner vs = true -> In v vs -> inner v = true.
  Proof.
    intros r vs v Hr EX Hv. destruct (ranks_vs g W rk m l GI RO r vs Hr) as [N V].
    apply existsb_exists in EX as [u [Hu IU]]. apply inner_iff in IU as [U1 U2]. apply inner_iff.
    apply V in Hu as [Hu1 Hu2]. apply V in Hv as [Hv1 Hv2]. split; intros ->.
    - apply U1. apply (rank_zero g W rk m l GI RO NW); [assumption|]. rewrite Hu2, <- Hv2. apply (rank_start g W rk m l GI RO).
    - apply U2. apply (rank_last g W rk m l GI RO NW); [assumption|]. congruence.
  Qed.

  Lemma cell_on : forall r vs v sg ts, In (r, vs) (ranks_table rk m l) -> In v vs -> In (sg, ts) (tokens_on W v) ->
    dget str_eqb sg (cells_of W vs) = Some ts.
  Proof.
    intros r vs v sg ts Hr Hv Ht. destruct (ranks_vs g W rk m l GI RO r vs Hr) as [N V].
    apply (In_dget _ str_eqb_ok).
    - apply (cells_NoDup g W rk GI (path_sorted g W rk m l GI RO) vs r N). intros u Hu. apply V in Hu. tauto.
    - apply in_flat_map. exists v. auto.
  Qed.

  Theorem variant_why : forall i col, let t := the_table W rk m l (map fst W) in
    nth_error (t_columns t) i = Some col -> c_variant col = true ->
    (exists ro, In ro (t_rows t) /\ nth_error (r_cells ro) i = Some None) \/
    (exists ro1 ro2 ts1 ts2 v1 v2 vx1 vx2, In ro1 (t_rows t) /\ In ro2 (t_rows t) /\
       nth_error (r_cells ro1) i = Some (Some ts1) /\ nth_error (r_cells ro2) i = Some (Some ts2) /\
       v1 <> v2 /\ dget Nat.eqb v1 (g_verts g) = Some vx1 /\ dget Nat.eqb v2 (g_verts g) = Some vx2 /\
       In (r_header ro1, ts1) (v_tokens vx1) /\ In (r_header ro2, ts2) (v_tokens vx2)).
  Proof.
    intros i col t N V. pose proof N as N'. apply nth_error_In in N'. cbn [t t_columns the_table] in N'.
    apply in_map_iff in N' as [[r vs] [<- Hr]]. unfold table_ranks in Hr. apply filter_In in Hr as [Hr EX]. cbn [snd] in EX.
    destruct (ranks_vs g W rk m l GI RO r vs Hr) as [NV VV].
    cbn [mkcol c_variant snd] in V. apply orb_true_iff in V as [V|V].
    - right. apply Nat.ltb_lt in V. destruct vs as [|v1 [|v2 vs]]; [cbn in V; lia|cbn in V; lia|].
      assert (TO : forall v, In v (v1 :: v2 :: vs) -> exists sg ts vx, In (sg, ts) (tokens_on W v) /\ dget Nat.eqb v (g_verts g) = Some vx /\ In sg (map fst W) /\ In (sg, ts) (v_tokens vx)).
      { intros v Hv. pose proof (rank_alone r _ v Hr EX Hv) as IV. apply VV in Hv as [Hv _].
        pose proof (tokens_on_nonempty g W v GI Hv IV) as NE. destruct (tokens_on W v) as [|[sg ts] L] eqn:E; [congruence|].
        assert (Hi : In (sg, ts) (tokens_on W v)) by (rewrite E; left; reflexivity).
        destruct (dget_Some_key _ nat_eqb_ok v (g_verts g) Hv) as [vx D]. exists sg, ts, vx. split; [left; reflexivity|]. split; [assumption|].
        split; [|rewrite (gi_tokens _ _ GI v vx D); assumption].
        apply tokens_on_In in Hi as [p [P1 [P2 _]]]. cbn [fst] in P2. rewrite <- P2. apply in_map. assumption. }
      destruct (TO v1) as [s1 [ts1 [vx1 [A1 [A2 [A3 A4]]]]]]; [left; reflexivity|].
      destruct (TO v2) as [s2 [ts2 [vx2 [B1 [B2 [B3 B4]]]]]]; [right; left; reflexivity|].
      exists (construct_row (t_columns t) s1), (construct_row (t_columns t) s2), ts1, ts2, v1, v2, vx1, vx2.
      split; [apply in_map; assumption|]. split; [apply in_map; assumption|].
      rewrite !(row_cell _ _ _ _ N). cbn [mkcol c_cells snd].
      rewrite (cell_on r _ v1 s1 ts1 Hr) by (auto; left; reflexivity). rewrite (cell_on r _ v2 s2 ts2 Hr) by (auto; right; left; reflexivity).
      split; [reflexivity|]. split; [reflexivity|]. split; [|auto]. intros ->. inversion NV as [|? ? X _]; subst. apply X. left. reflexivity.
    - left. apply negb_true_iff, Nat.eqb_neq in V.
      assert (NK : NoDup (map fst (cells_of W vs))).
      { apply (cells_NoDup g W rk GI (path_sorted g W rk m l GI RO) vs r NV). intros u Hu. apply VV in Hu. tauto. }
      assert (IK : incl (map fst (cells_of W vs)) (map fst W)).
      { intros x Hx. apply in_map_iff in Hx as [[s ts] [<- Hx]]. apply in_flat_map in Hx as [v [_ Hx]]. apply tokens_on_In in Hx as [p [P1 [P2 _]]].
        cbn [fst] in *. rewrite <- P2. apply in_map. assumption. }
      assert (exists s, In s (map fst W) /\ ~ In s (map fst (cells_of W vs))) as [s [S1 S2]].
      { assert (D : forall L, incl L (map fst W) -> (exists s, In s L /\ ~ In s (map fst (cells_of W vs))) \/ incl L (map fst (cells_of W vs))).
        { induction L as [|x L IH]; intros I; [right; intros y []|]. destruct (in_dec (list_eq_dec N.eq_dec) x (map fst (cells_of W vs))) as [Hx|Hx].
          - destruct IH as [[s [S1 S2]]|IH]; [intros y Hy; apply I; right; assumption|left; exists s; split; [right|]; assumption|].
            right. intros y [<-|Hy]; auto.
          - left. exists x. split; [left; reflexivity|assumption]. }
        destruct (D (map fst W) (incl_refl _)) as [H|H]; [exact H|]. exfalso. apply V.
        rewrite map_length. apply Nat.le_antisymm.
        - pose proof (NoDup_incl_length NK IK) as X. rewrite !map_length in X. exact X.
        - pose proof (NoDup_incl_length (gi_sigla _ _ GI) H) as X. rewrite !map_length in X. exact X. }
      exists (construct_row (t_columns t) s). split; [apply in_map; assumption|].
      rewrite (row_cell _ _ _ _ N). cbn [mkcol c_cells snd]. f_equal.
      destruct (dget str_eqb s (cells_of W vs)) as [ts|] eqn:D; [|reflexivity]. exfalso. apply S2. apply (dget_In _ str_eqb_ok) in D. apply (in_map fst) in D. exact D.
  Qed.
End Variant.

Theorem variant_columns : forall cc topo ratio c o g t, topo_ok topo -> good_sigla c -> o_near o = false ->
  collate cc topo ratio c (set_output o (lit "graph")) = Ok (OGraph g) ->
  collate cc topo ratio c (set_output o (lit "table")) = Ok (OTable t) ->
  forall i col, nth_error (t_columns t) i = Some col -> c_variant col = true ->
    (exists ro, In ro (t_rows t) /\ nth_error (r_cells ro) i = Some None) \/
    (exists ro1 ro2 ts1 ts2 v1 v2 vx1 vx2, In ro1 (t_rows t) /\ In ro2 (t_rows t) /\
       nth_error (r_cells ro1) i = Some (Some ts1) /\ nth_error (r_cells ro2) i = Some (Some ts2) /\
       v1 <> v2 /\ dget Nat.eqb v1 (g_verts g) = Some vx1 /\ dget Nat.eqb v2 (g_verts g) = Some vx2 /\
       In (r_header ro1, ts1) (v_tokens vx1) /\ In (r_header ro2, ts2) (v_tokens vx2)).
Proof.
  intros cc topo ratio c o g t TO [ND NE] Hn HG HT.
  destruct (collate_graph_inv cc topo ratio c _ g HG) as [r H1]. destruct (collate_table_inv cc topo ratio c _ t HT) as [g' [r' [H1' H2]]].
  rewrite collate_graph_output in H1, H1'. rewrite H1 in H1'. injection H1' as <- <-.
  destruct (result_spec cc topo ratio TO c o g r ND NE H1) as [ti [st [W0 [W [part RS]]]]].
  destruct (rs_near _ _ _ _ _ _ _ _ _ _ _ RS Hn) as [N0 [rk [m [l [RO E]]]]]. subst r.
  pose proof (jo_graph _ _ _ _ _ _ (rs_joined _ _ _ _ _ _ _ _ _ _ _ RS)) as GI.
  assert (NN : without_near g = g) by (destruct g; cbn in N0; subst; reflexivity). rewrite NN in GI.
  rewrite (table_spec g W rk m l GI RO) in H2. injection H2 as <-.
  rewrite <- (carries_sigla c W (rs_carries _ _ _ _ _ _ _ _ _ _ _ RS)). apply (variant_why g W rk m l GI RO).
  apply (carries_nonempty c); [apply (collate_nonempty cc topo ratio c o g _ H1)|apply (rs_carries _ _ _ _ _ _ _ _ _ _ _ RS)].
Qed.
