(** Proofs about QueryModel.v: the order of the vertices, and what vertexWith finds. *)
From Verif Require Import Py Lib TokenModel IndexModel AlignModel GraphModel TableModel CollateModel GraphSpec TableSpec CollateSpec GraphProof MergeProof AlignerProof CollateProof ResultProof FactsProof QueryModel QuerySpec.
From Coq Require Import QArith.
Open Scope list_scope.
Open Scope nat_scope.

(** ** Start and end are the first two vertices *)
Inductive sublist : list nat -> list nat -> Prop :=
| sl_nil : sublist [] []
| sl_keep : forall x a b, sublist a b -> sublist (x :: a) (x :: b)
| sl_drop : forall x a b, sublist a b -> sublist a (x :: b).
Lemma sublist_refl : forall l, sublist l l.
Proof. induction l; constructor; assumption. Qed.
Lemma sublist_trans : forall a b, sublist a b -> forall c, sublist b c -> sublist a c.
Proof.
  intros a b H c H2. revert a H. induction H2 as [|x b c H2 IH|x b c H2 IH]; intros a H; [assumption| |].
  - inversion H as [|? a' ? H'|? ? ? H']; subst; constructor; apply IH; assumption.
  - constructor. apply IH. assumption.
Qed.
Lemma sublist_In : forall a b, sublist a b -> forall x, In x a -> In x b.
Proof. intros a b H. induction H; cbn [In]; intuition auto. Qed.
Lemma sublist_head : forall a b x, sublist a (x :: b) -> NoDup (x :: b) -> In x a -> exists a', a = x :: a' /\ sublist a' b.
Proof.
  intros a b x H ND Hi. inversion H as [|? a' ? H'|? ? ? H']; subst; [eauto|]. exfalso. inversion ND; subst. apply (sublist_In _ _ H') in Hi. contradiction.
Qed.

Lemma ddel_sub : forall {V} k (d : list (nat * V)), sublist (map fst (ddel Nat.eqb k d)) (map fst d).
Proof. intros V k d. induction d as [|[a b] d IH]; cbn [ddel map fst]; [constructor|]. destruct (k =? a); cbn [map fst]; constructor; [apply sublist_refl|assumption]. Qed.

Lemma get_vertex_key : forall g v vx, get_vertex g v = Ok vx -> In v (vertices g).
Proof.
  intros g v vx H. unfold get_vertex, dgetE in H. destruct (dget Nat.eqb v (g_verts g)) as [y|] eqn:D; [|discriminate H].
  apply (dget_In _ nat_eqb_ok) in D. apply (in_map fst) in D. exact D.
Qed.
Lemma update_vertices : forall g v vx, In v (vertices g) -> vertices (update_vertex g v vx) = vertices g.
Proof. intros. unfold vertices, update_vertex. cbn [g_verts]. apply (dset_keys_old _ nat_eqb_ok). assumption. Qed.
Lemma remove_edge_vertices : forall g u v g', remove_edge g u v = Ok g' -> vertices g' = vertices g.
Proof. intros g u v g' H. unfold remove_edge in H. destruct (dmem edge_eqb (u, v) (g_edges g)); [injection H as <-; reflexivity|discriminate H]. Qed.
Lemma remove_node_vertices : forall g v g', remove_node g v = Ok g' -> sublist (vertices g') (vertices g).
Proof. intros g v g' H. unfold remove_node in H. destruct (dmem Nat.eqb v (g_verts g)); [injection H as <-; apply ddel_sub|discriminate H]. Qed.

Lemma absorb_vertices : forall cc g cand v g', absorb cc g cand v = Ok g' -> sublist (vertices g') (vertices g).
Proof.
  intros cc g cand v g' H. unfold absorb in H. apply bind_ok in H as [g1 [H1 H]]. apply bind_ok in H as [g2 [H2 H]]. apply bind_ok in H as [g3 [H3 H]].
  apply remove_node_vertices in H. rewrite (remove_edge_vertices _ _ _ _ H3) in H.
  assert (E2 : vertices g2 = vertices g1).
  { apply (foldM_same vertices) in H2; [exact H2|]. intros s e s' Hs. apply bind_ok in Hs as [s1 [Q1 Q2]]. injection Q2 as <-. apply (remove_edge_vertices _ _ _ _ Q1). }
  assert (E1 : vertices g1 = vertices g).
  { unfold join_vertices in H1. apply bind_ok in H1 as [vx [Q1 H1]]. apply bind_ok in H1 as [cx [_ H1]]. apply bind_ok in H1 as [vx' [_ H1]]. injection H1 as <-.
    apply update_vertices. apply (get_vertex_key _ _ _ Q1). }
  rewrite E2, E1 in H. exact H.
Qed.
Lemma join_vertices_sub : forall cc f g q pr g', join_loop cc f g q pr = Ok g' -> sublist (vertices g') (vertices g).
Proof.
  intros cc. induction f as [|f IH]; intros g q pr g' H; destruct q as [|v q]; cbn [join_loop] in H; try (injection H as <-; apply sublist_refl); [discriminate H|].
  destruct (negb (dmem Nat.eqb v (g_verts g))); [discriminate H|].
  destruct (out_edges g v) as [|[[a cand] lb] [|e es]]; try (apply IH in H; exact H).
  destruct (negb (cand =? v_end) && (List.length (in_edges g cand) =? 1)); [|apply IH in H; exact H].
  apply bind_ok in H as [g1 [H1 H]]. apply IH in H. apply absorb_vertices in H1. apply (sublist_trans _ _ H _ H1).
Qed.

Lemma merge_vertices : forall sg ts g al last t2v g' last' t2v', merge_tokens g sg ts al last t2v = Ok (g', last', t2v') ->
  exists more, vertices g' = vertices g ++ more.
Proof.
  intros sg. induction ts as [|t ts IH]; intros g al last t2v g' last' t2v' H; cbn [merge_tokens] in H.
  - injection H as <- _ _. exists []. rewrite app_nil_r. reflexivity.
  - destruct (dget Nat.eqb (tk_pos t) al) as [v|].
    + apply bind_ok in H as [g1 [H1 H]]. apply IH in H as [more H]. exists more. rewrite H. f_equal. change (vertices (connect g1 last v sg)) with (vertices g1).
      unfold graph_add_token in H1. apply bind_ok in H1 as [vx [Q1 H1]]. injection H1 as <-. apply update_vertices. apply (get_vertex_key _ _ _ Q1).
    + destruct (add_vertex g t sg) as [g1 v] eqn:E. apply IH in H as [more H]. exists (v :: more). rewrite H. change (vertices (connect g1 last v sg)) with (vertices g1).
      unfold add_vertex in E. injection E as <- <-. unfold vertices at 1. cbn [g_verts]. rewrite map_app, <- app_assoc. reflexivity.
Qed.
Definition ends_first (g : graph) : Prop := exists more, vertices g = v_start :: v_end :: more.
Lemma merge_ends : forall g sg ts al g' n, merge g sg ts al = Ok (g', n) -> ends_first g -> ends_first g'.
Proof.
  intros g sg ts al g' n H [more E]. unfold merge in H. apply bind_ok in H as [[[g1 last] t2v] [H1 H]]. injection H as <- _.
  apply merge_vertices in H1 as [more' H1]. exists (more ++ more'). change (vertices (connect g1 last v_end sg)) with (vertices g1). rewrite H1, E. reflexivity.
Qed.
Lemma aligner_ends : forall topo filt detect c ti g, aligner_collate topo filt detect c = Ok (ti, g) -> ends_first g.
Proof.
  intros topo filt detect c ti g H. unfold aligner_collate in H. apply bind_ok in H as [ti' [_ H]]. apply bind_ok in H as [st [H1 H]]. injection H as <- <-.
  unfold align_all in H1. destruct (ti_wits ti') as [|w ws]; [discriminate H1|]. apply bind_ok in H1 as [st0 [H0 H1]].
  assert (E0 : ends_first (a_graph st0)).
  { unfold first_step in H0. apply bind_ok in H0 as [[g0 t2v] [Q H0]]. apply bind_ok in H0 as [r [_ H0]]. apply bind_ok in H0 as [varr [_ H0]]. injection H0 as <-.
    cbn [a_graph]. apply (merge_ends _ _ _ _ _ _ Q). exists []. reflexivity. }
  clear H0. revert st0 E0 H1. induction ws as [|w' ws IH]; intros st0 E0 H1; cbn [foldM] in H1; [injection H1 as <-; exact E0|].
  apply bind_ok in H1 as [st1 [Q H1]]. apply (IH st1); [|exact H1]. unfold next_step in Q.
  apply bind_ok in Q as [rk [_ Q]]. apply bind_ok in Q as [ranks [_ Q]]. apply bind_ok in Q as [m [_ Q]]. apply bind_ok in Q as [al [_ Q]].
  apply bind_ok in Q as [[g' new] [M Q]]. apply bind_ok in Q as [r [_ Q]]. apply bind_ok in Q as [wp [_ Q]]. apply bind_ok in Q as [va [_ Q]].
  destruct detect; [discriminate Q|]. injection Q as <-. cbn [a_graph]. apply (merge_ends _ _ _ _ _ _ M E0).
Qed.

Section Result.
  Variables (cc : cclass) (topo : graph -> res (list vid)) (ratio : str -> str -> Q).
  Hypothesis TO : topo_ok topo.

  Theorem result_graph : forall c o g r, good_sigla c -> collate_graph cc topo ratio c o = Ok (g, r) ->
    exists W, graph_of (without_near g) W /\ Forall2 carries c W /\ ends_first g.
  Proof.
    intros c o g r [ND NE] H. destruct (result_spec cc topo ratio TO c o g r ND NE H) as [ti [st [W0 [W [part RS]]]]].
    pose proof (rs_joined _ _ _ _ _ _ _ _ _ _ _ RS) as JO. pose proof (jo_graph _ _ _ _ _ _ JO) as GI. exists W. split; [exact GI|]. split; [apply (rs_carries _ _ _ _ _ _ _ _ _ _ _ RS)|].
    unfold collate_graph in H. apply bind_ok in H as [[ti' g1] [A H]]. destruct (o_astar o); [discriminate A|].
    destruct (aligner_spec _ _ _ _ _ _ TO ND NE A) as [_ [_ [st' [W1 [EG [AL _]]]]]]. apply (al_graph _ _ _ _ _) in AL. rewrite EG in AL. apply aligner_ends in A.
    apply bind_ok in H as [rk [_ H]]. apply bind_ok in H as [[g2 rk2] [N H]].
    assert (E2 : ends_first g2 /\ NoDup (vertices g2)).
    { destruct (o_near o); [|injection N as <- _; split; [exact A|apply (gi_verts _ _ AL)]]. destruct (o_segmentation o); [discriminate N|]. apply near_match_same in N as [N _].
      assert (V : vertices g2 = vertices g1) by (change (vertices (without_near g2) = vertices (without_near g1)); rewrite N; reflexivity).
      unfold ends_first. rewrite V. split; [exact A|apply (gi_verts _ _ AL)]. }
    destruct E2 as [[more E2] ND2]. destruct (o_segmentation o); [|injection H as <- _; exists more; exact E2].
    apply bind_ok in H as [g3 [J H]]. apply bind_ok in H as [rk3 [_ H]]. injection H as <- _. unfold join in J. apply join_vertices_sub in J. rewrite E2 in J, ND2.
    assert (I0 : In v_start (vertices g3)) by (pose proof (gi_start _ _ GI) as Q; apply (dget_In _ nat_eqb_ok) in Q; apply (in_map fst) in Q; exact Q).
    assert (I1 : In v_end (vertices g3)) by (pose proof (gi_end _ _ GI) as Q; apply (dget_In _ nat_eqb_ok) in Q; apply (in_map fst) in Q; exact Q).
    destruct (sublist_head _ _ _ J ND2 I0) as [a [E3 J1]]. rewrite E3 in I1. destruct I1 as [Q|I1]; [discriminate Q|].
    assert (ND1 : NoDup (v_end :: more)) by (inversion ND2; assumption).
    destruct (sublist_head _ _ _ J1 ND1 I1) as [a' [-> _]]. exists a'. exact E3.
  Qed.

  (** ** vertexWith *)
  Lemma result_verts : forall c o g r, good_sigla c -> collate_graph cc topo ratio c o = Ok (g, r) -> NoDup (vertices g).
  Proof. intros c o g r GS H. destruct (result_graph c o g r GS H) as [W [GI _]]. apply (gi_verts _ _ GI). Qed.
End Result.

Lemma vertex_with_ok : forall g s v, NoDup (vertices g) -> vertex_with g s = Ok v ->
  exists vx, dget Nat.eqb v (g_verts g) = Some vx /\ v_label vx = s.
Proof.
  intros g s v ND H. unfold vertex_with in H. destruct (find _ (g_verts g)) as [[u vx]|] eqn:F; [|discriminate H]. injection H as <-.
  apply find_some in F as [F1 F2]. cbn [fst snd] in *. exists vx. split; [apply (In_dget _ nat_eqb_ok); [exact ND|exact F1]|]. apply str_eqb_ok. exact F2.
Qed.
Lemma vertex_with_found : forall g s v vx, dget Nat.eqb v (g_verts g) = Some vx -> v_label vx = s -> exists u, vertex_with g s = Ok u.
Proof.
  intros g s v vx D L. unfold vertex_with. destruct (find _ (g_verts g)) as [x|] eqn:F; [exists (fst x); reflexivity|].
  exfalso. apply (dget_In _ nat_eqb_ok) in D. pose proof (find_none _ _ F (v, vx) D) as N. cbn [snd] in N. rewrite L in N.
  assert (T : str_eqb s s = true) by (apply str_eqb_ok; reflexivity). rewrite T in N. discriminate N.
Qed.
Lemma vertex_with_cases : forall g s, (exists v, vertex_with g s = Ok v) \/ vertex_with g s = Raise VertexNotFound.
Proof. intros g s. unfold vertex_with. destruct (find _ _); eauto. Qed.

Section Found.
  Variables (cc : cclass) (topo : graph -> res (list vid)) (ratio : str -> str -> Q).
  Hypothesis TO : topo_ok topo.

  Lemma carried : forall c W, Forall2 carries c W -> forall w t, In w c -> In t (w_toks w) -> exists p v ts t', In p W /\ In (v, ts) (snd p) /\ In t' ts /\ tk_str t' = t0_str t.
  Proof.
    intros c W F. induction F as [|w p c W [_ C] F IH]; intros x t Hx Ht; [contradiction|]. destruct Hx as [<-|Hx].
    - assert (G : exists t', In t' (flat_map snd (snd p)) /\ came_from (w_sigil w) t t').
      { clear - C Ht. induction C as [|a b l l' H C IH]; [contradiction|]. destruct Ht as [->|Ht]; [exists b; split; [left; reflexivity|exact H]|].
        destruct (IH Ht) as [t' [Q1 Q2]]. exists t'. split; [right; exact Q1|exact Q2]. }
      destruct G as [t' [G1 G2]]. apply in_flat_map in G1 as [[v ts] [G1 G3]]. exists p, v, ts, t'. split; [left; reflexivity|]. split; [exact G1|]. split; [exact G3|].
      apply G2.
    - destruct (IH x t Hx Ht) as [q [v [ts [t' [Q1 Q2]]]]]. exists q, v, ts, t'. split; [right; exact Q1|exact Q2].
  Qed.
  Lemma carried_back : forall c W, Forall2 carries c W -> forall p v ts t', In p W -> In (v, ts) (snd p) -> In t' ts ->
    exists w t, In w c /\ w_sigil w = fst p /\ In t (w_toks w) /\ came_from (w_sigil w) t t'.
  Proof.
    intros c W F. induction F as [|w p c W [S C] F IH]; intros q v ts t' Hq Hi Ht; [contradiction|]. destruct Hq as [<-|Hq].
    - assert (G : In t' (flat_map snd (snd p))) by (apply in_flat_map; exists (v, ts); auto).
      assert (K : exists t, In t (w_toks w) /\ came_from (w_sigil w) t t').
      { clear - C G. induction C as [|a b l l' H C IH]; [contradiction|]. destruct G as [->|G]; [exists a; split; [left; reflexivity|exact H]|].
        destruct (IH G) as [t [Q1 Q2]]. exists t. split; [right; exact Q1|exact Q2]. }
      destruct K as [t [K1 K2]]. exists w, t. split; [left; reflexivity|]. auto.
    - destruct (IH q v ts t' Hq Hi Ht) as [x [t [Q1 Q2]]]. exists x, t. split; [right; exact Q1|exact Q2].
  Qed.

  Theorem found_plain : forall c o g r s, good_sigla c -> o_segmentation o = false -> collate_graph cc topo ratio c o = Ok (g, r) -> ~ end_label s ->
    (occurs_in c s -> exists v vx, vertex_with g s = Ok v /\ dget Nat.eqb v (g_verts g) = Some vx /\ v_tokens vx <> [] /\
       forall sg ts, In (sg, ts) (v_tokens vx) -> exists w t0 t, In w c /\ w_sigil w = sg /\ In t0 (w_toks w) /\ came_from sg t0 t /\ ts = [t] /\ tk_str t = s) /\
    (~ occurs_in c s -> vertex_with g s = Raise VertexNotFound).
  Proof.
    intros c o g r s GS HS H NE. destruct (result_graph cc topo ratio TO c o g r GS H) as [W [GI [CA _]]].
    assert (ND : NoDup (vertices g)) by (apply (gi_verts _ _ GI)).
    assert (ENDS : forall v vx, dget Nat.eqb v (g_verts g) = Some vx -> v_label vx = s -> v <> v_start /\ v <> v_end).
    { intros v vx D L. split; intros ->; apply NE; unfold end_label.
      - pose proof (gi_start _ _ GI) as Q. cbn [without_near g_verts] in Q. rewrite D in Q. injection Q as ->. left. symmetry. exact L.
      - pose proof (gi_end _ _ GI) as Q. cbn [without_near g_verts] in Q. rewrite D in Q. injection Q as ->. right. symmetry. exact L. }
    assert (AT : forall v vx, dget Nat.eqb v (g_verts g) = Some vx -> v_label vx = s -> v_tokens vx <> [] /\
      forall sg ts, In (sg, ts) (v_tokens vx) -> exists w t0 t, In w c /\ w_sigil w = sg /\ In t0 (w_toks w) /\ came_from sg t0 t /\ ts = [t] /\ tk_str t = s).
    { intros v vx D L. destruct (ENDS v vx D L) as [N1 N2]. destruct (vertex_readings cc topo ratio TO c o g r GS H v vx D) as [rd [A [_ C]]]. rewrite (C HS N1 N2), L in A.
      assert (TT : v_tokens vx = tokens_on W v) by (apply (gi_tokens _ _ GI v vx D)). rewrite TT in *. split.
      - assert (V : In v (vertices (without_near g))) by (apply (dget_In _ nat_eqb_ok) in D; apply (in_map fst) in D; exact D).
        destruct (gi_cover _ _ GI v V) as [Q|[Q|[p [ts [Q1 Q2]]]]]; [contradiction|contradiction|]. intro F.
        assert (K : In (fst p, ts) (tokens_on W v)).
        { apply tokens_on_In. exists p. split; [exact Q1|]. split; [reflexivity|]. apply (In_dget _ nat_eqb_ok); [|exact Q2].
          pose proof (gi_simple _ _ GI p Q1) as NC. unfold chain in NC. inversion NC as [|? ? _ NC']; subst. apply NoDup_app_iff in NC' as [NC' _]. exact NC'. }
        rewrite F in K. contradiction.
      - intros sg ts Hi. specialize (A sg ts Hi). destruct ts as [|t [|? ?]]; try discriminate A. injection A as A.
        apply tokens_on_In in Hi as [p [Q1 [Q2 Q3]]]. apply (dget_In _ nat_eqb_ok) in Q3. destruct (carried_back c W CA p v [t] t Q1 Q3 (or_introl eq_refl)) as [w [t0 [K1 [K2 [K3 K4]]]]].
        exists w, t0, t. rewrite Q2 in K2. rewrite K2 in K4. auto 8. }
    split.
    - intros [w [t [Hw [Ht E]]]]. destruct (carried c W CA w t Hw Ht) as [p [v [ts [t' [Q1 [Q2 [Q3 Q4]]]]]]]. rewrite E in Q4.
      destruct (gi_on _ _ GI p v ts Q1 Q2) as [V _]. apply (dget_Some_key _ nat_eqb_ok) in V as [vx D]. cbn [without_near g_verts] in D.
      assert (K : In (fst p, ts) (v_tokens vx)).
      { rewrite (gi_tokens _ _ GI v vx D). apply tokens_on_In. exists p. split; [exact Q1|]. split; [reflexivity|]. apply (In_dget _ nat_eqb_ok); [|exact Q2].
        pose proof (gi_simple _ _ GI p Q1) as NC. unfold chain in NC. inversion NC as [|? ? _ NC']; subst. apply NoDup_app_iff in NC' as [NC' _]. exact NC'. }
      assert (N : v <> v_start /\ v <> v_end).
      { pose proof (gi_simple _ _ GI p Q1) as NC. unfold chain in NC. inversion NC as [|? ? M1 NC']; subst. apply NoDup_app_iff in NC' as [_ [_ NC']].
        assert (Hv : In v (map fst (snd p))) by (apply (in_map fst) in Q2; exact Q2). split; intros ->.
        - apply M1. apply in_or_app. left. exact Hv.
        - apply (NC' v_end Hv). left. reflexivity. }
      destruct (vertex_readings cc topo ratio TO c o g r GS H v vx D) as [rd [A [_ C]]]. rewrite (C HS (proj1 N) (proj2 N)) in A. specialize (A _ _ K).
      destruct ts as [|t1 [|? ?]]; try discriminate A. injection A as A. destruct Q3 as [<-|[]].
      assert (L : v_label vx = s) by congruence.
      destruct (vertex_with_found g s v vx D L) as [u Hu]. destruct (vertex_with_ok g s u ND Hu) as [ux [D' L']]. exists u, ux. split; [exact Hu|]. split; [exact D'|]. apply (AT u ux D' L').
    - intros NO. destruct (vertex_with_cases g s) as [[v Hv]|E]; [|exact E]. exfalso. apply NO. destruct (vertex_with_ok g s v ND Hv) as [vx [D L]].
      destruct (AT v vx D L) as [NE' AA]. destruct (v_tokens vx) as [|[sg ts] l]; [contradiction|]. destruct (AA sg ts (or_introl eq_refl)) as [w [t0 [t [K1 [K2 [K3 [K4 [K5 K6]]]]]]]].
      exists w, t0. split; [exact K1|]. split; [exact K3|]. rewrite <- K6. symmetry. apply K4.
  Qed.

  Theorem found_ends : forall c o g r, good_sigla c -> collate_graph cc topo ratio c o = Ok (g, r) ->
    vertex_with g (lit "start") = Ok v_start /\
    (exists v, vertex_with g (lit "end") = Ok v /\ v = v_end).
  Proof.
    intros c o g r GS H. destruct (result_graph cc topo ratio TO c o g r GS H) as [W [GI [_ [more E]]]].
    pose proof (gi_start _ _ GI) as Q0. pose proof (gi_end _ _ GI) as Q1. cbn [without_near g_verts] in Q0, Q1. unfold vertices in E.
    destruct (g_verts g) as [|[a x] [|[b y] l]] eqn:V; try discriminate E. cbn [map fst] in E. injection E as -> -> E.
    cbn [dget] in Q0, Q1. cbn in Q0, Q1. injection Q0 as ->. injection Q1 as ->. unfold vertex_with. rewrite V. split; [reflexivity|]. exists v_end. split; reflexivity.
  Qed.
End Found.
