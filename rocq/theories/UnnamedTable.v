(** The graph and the table of a collation with a witness without a name (C42). *)
From Verif Require Import Py Lib TokenModel SuffixModel IndexModel GraphModel AlignModel TableModel NearModel ExportModel
  CollateModel GraphSpec CollateSpec TableSpec GraphProof MergeProof AlignerProof RankProof TableProof CollateProof IndexProof ResultProof
  ParamSpec ParamProof RenameSpec RenameProof UnnamedSpec UnnamedProof JoinProof UnnamedJoin SizeProof BlockText.
From Coq Require Import Sorted QArith.
Open Scope list_scope.
Open Scope nat_scope.

(** ** Columns *)
Lemma put_got : forall k ts cells, NoDup (map fst ts) -> got k (put_tokens cells ts) = match got k ts with Some l => Some l | None => got k cells end.
Proof.
  intros k. unfold put_tokens. induction ts as [|[sg t] ts IH]; intros cells N; [reflexivity|]. cbn [map fst] in N. inversion N as [|? ? N1 N2]; subst.
  cbn [fold_left dget]. rewrite IH by exact N2. destruct (str_eqb k sg) eqn:Q.
  - apply str_eqb_ok in Q. subst k. rewrite (dget_set_same _ str_eqb_ok). destruct (got sg ts) as [l|] eqn:D; [|reflexivity].
    exfalso. apply N1. apply (dget_In _ str_eqb_ok) in D. apply in_map_iff. exists (sg, l). auto.
  - rewrite (dget_set_other _ str_eqb_ok); [reflexivity|]. intros ->. rewrite (proj2 (str_eqb_ok k k) eq_refl) in Q. discriminate.
Qed.

Section Columns.
  Variables (f : str -> str) (s : str) (E : list str) (g g' : graph).
  Hypothesis Fi : forall a b, f a = f b -> a = b.
  Hypothesis Fs : f s = [].
  Hypothesis G : grel (R3 f s E) g g'.
  Definition cells_of_col (c : option column) : list (str * list token) := match c with Some c => c_cells c | None => [] end.
  Definition inside (v : vid) : Prop := v <> v_start /\ v <> v_end.
  Lemma inside_test : forall v, ((v =? v_start) || (v =? v_end)) = false <-> inside v.
  Proof. intros v. rewrite orb_false_iff, !Nat.eqb_neq. reflexivity. Qed.

  (** What a column holds of a witness [k] that has at most one vertex in it. *)
  Lemma column_holds : forall n N vs col oc, foldM (column_step g n N) vs col = Ok oc ->
    forall v x k l, In v vs -> inside v -> get_vertex g v = Ok x -> got k (v_tokens x) = Some l ->
    (forall v1 x1, In v1 vs -> get_vertex g v1 = Ok x1 -> got k (v_tokens x1) <> None -> v1 = v) -> got k (cells_of_col oc) = Some l.
  Proof.
    intros n N vs. induction vs as [|v0 vs IH]; intros col oc H v x k l I IN GV D U; [destruct I|]. cbn [foldM] in H. apply bind_ok in H as [c1 [H1 H]].
    assert (ND : forall y x, get_vertex g y = Ok x -> NoDup (map fst (v_tokens x))).
    { intros y z GY. pose proof (rel_get _ y _ _ (ge_verts _ _ _ G)) as RG. unfold get_vertex in GY. rewrite GY in RG. destruct (dgetE Nat.eqb y (g_verts g')); [|contradiction].
      destruct RG as [[_ [N1 _]] _]. exact N1. }
    destruct (in_dec Nat.eq_dec v vs) as [J|J].
    - apply (IH c1 oc H v x k l J IN GV D). intros v1 x1 I1. apply U. right. exact I1.
    - destruct I as [->|I]; [|contradiction].
      assert (K : got k (cells_of_col c1) = Some l).
      { unfold column_step in H1. rewrite (proj2 (inside_test v) IN) in H1. rewrite GV in H1. cbn [bind] in H1. injection H1 as <-. cbn [cells_of_col c_cells].
        rewrite put_got by (apply (ND v); exact GV). rewrite D. reflexivity. }
      assert (U' : forall v1 x1, In v1 vs -> get_vertex g v1 = Ok x1 -> got k (v_tokens x1) = None).
      { intros v1 x1 I1 GX. destruct (got k (v_tokens x1)) eqn:Q; [|reflexivity]. exfalso. apply J. rewrite <- (U v1 x1 (or_intror I1) GX); [exact I1|congruence]. }
      clear IH H1 J U D GV IN. revert c1 K H. induction vs as [|v1 vs IHv]; intros c1 K H; cbn [foldM] in H; [injection H as <-; exact K|].
      apply bind_ok in H as [c2 [H2 H]]. apply (IHv (fun v2 x2 I2 => U' v2 x2 (or_intror I2)) c2); [|exact H].
      unfold column_step in H2. destruct ((v1 =? v_start) || (v1 =? v_end)); [injection H2 as <-; exact K|].
      apply bind_ok in H2 as [x1 [GX H2]]. injection H2 as <-. cbn [cells_of_col c_cells]. rewrite put_got by (apply (ND v1); exact GX).
      rewrite (U' v1 x1 (or_introl eq_refl) GX). exact K.
  Qed.

  Definition crel (vs : list vid) (c c' : option column) : Prop :=
    (c = None <-> c' = None) /\
    (forall k, k <> s -> got (f k) (cells_of_col c') = option_map (map (mt f)) (got k (cells_of_col c))) /\
    (got s (cells_of_col c) = None /\ got [] (cells_of_col c') = None \/
     exists v x x', In v vs /\ inside v /\ get_vertex g v = Ok x /\ get_vertex g' v = Ok x' /\ R3 f s E v x x' /\ got s (v_tokens x) <> None /\
       got s (cells_of_col c) = got s (v_tokens x) /\ got [] (cells_of_col c') = got [] (v_tokens x')).

  Lemma crel_fold : forall n N vs0 vs col col', NoDup (vs0 ++ vs) ->
    (forall v1 x1 v2 x2, In v1 (vs0 ++ vs) -> In v2 (vs0 ++ vs) -> get_vertex g v1 = Ok x1 -> get_vertex g v2 = Ok x2 ->
       got s (v_tokens x1) <> None -> got s (v_tokens x2) <> None -> v1 = v2) ->
    crel vs0 col col' -> rres (crel (vs0 ++ vs)) (foldM (column_step g n N) vs col) (foldM (column_step g' n N) vs col').
  Proof.
    intros n N vs0 vs. revert vs0. induction vs as [|v vs IH]; intros vs0 col col' ND U C; cbn [foldM]; [rewrite app_nil_r; exact C|].
    assert (EQ : vs0 ++ v :: vs = (vs0 ++ [v]) ++ vs) by (rewrite <- app_assoc; reflexivity).
    apply (rres_bind (crel (vs0 ++ [v]))); [|intros a b Hab; rewrite EQ in *; apply IH; assumption].
    assert (MO : forall c c', crel vs0 c c' -> crel (vs0 ++ [v]) c c').
    { intros c c' [C1 [C2 C3]]. split; [exact C1|]. split; [exact C2|]. destruct C3 as [C3|[w [x [x' [I K]]]]]; [left; exact C3|right].
      exists w, x, x'. split; [apply in_or_app; left; exact I|exact K]. }
    unfold column_step. destruct ((v =? v_start) || (v =? v_end)) eqn:IT; [cbn; apply MO; exact C|]. apply inside_test in IT.
    pose proof (rel_get _ v _ _ (ge_verts _ _ _ G)) as RG. unfold get_vertex in *.
    destruct (dgetE Nat.eqb v (g_verts g)) as [x|e] eqn:GX, (dgetE Nat.eqb v (g_verts g')) as [x'|e'] eqn:GX'; cbn in RG; try contradiction; cbn [bind rres]; [|exact RG].
    pose proof RG as RR. destruct RG as [[_ [N1 [N2 OT]]] [X1 X2]]. destruct C as [C1 [C2 C3]]. split; [split; discriminate|].
    change (match col with Some c => c_cells c | None => [] end) with (cells_of_col col). change (match col' with Some c => c_cells c | None => [] end) with (cells_of_col col').
    split.
    - intros k Nk. cbn [cells_of_col c_cells]. rewrite !put_got by assumption. rewrite (OT k Nk), (C2 k Nk). destruct (got k (v_tokens x)); reflexivity.
    - cbn [cells_of_col c_cells]. rewrite !put_got by assumption. destruct (got s (v_tokens x)) as [ls|] eqn:D.
      + right. exists v, x, x'. split; [apply in_or_app; right; left; reflexivity|]. split; [exact IT|]. split; [exact GX|]. split; [exact GX'|].
        split; [exact RR|]. split; [congruence|]. split; [congruence|]. destruct (got [] (v_tokens x')) as [l'|] eqn:D'; [reflexivity|].
        destruct C3 as [[_ C3]|[w [y [y' [I [_ [K1 [_ [_ [K2 _]]]]]]]]]]; [exact C3|].
        exfalso. assert (w = v).
        { apply (U w y v x); try assumption; [apply in_or_app; left; exact I|apply in_or_app; right; left; reflexivity|congruence]. }
        subst w. apply NoDup_remove_2 in ND. apply ND. apply in_or_app. left. exact I.
      + assert (B2 : got [] (v_tokens x') = None) by (destruct (shared_dec E x) as [S|S]; [rewrite (X1 S); reflexivity|apply X2; exact S]). rewrite B2.
        destruct C3 as [C3|[w [y [y' [I K]]]]]; [left; exact C3|right]. exists w, y, y'. split; [apply in_or_app; left; exact I|exact K].
  Qed.

  Lemma columns_rel : forall n br, (forall k vs, In (k, vs) br -> NoDup vs /\
      forall v1 x1 v2 x2, In v1 vs -> In v2 vs -> get_vertex g v1 = Ok x1 -> get_vertex g v2 = Ok x2 ->
       got s (v_tokens x1) <> None -> got s (v_tokens x2) <> None -> v1 = v2) ->
    rres (Forall2 (fun c c' => exists k vs, In (k, vs) br /\ rank_column g n vs = Ok (Some c) /\ crel vs (Some c) (Some c'))) (construct_columns g n br) (construct_columns g' n br).
  Proof.
    intros n br H. unfold construct_columns.
    set (Q := Forall2 (fun c c' => exists k vs, In (k, vs) br /\ rank_column g n vs = Ok (Some c) /\ crel vs (Some c) (Some c'))).
    assert (K : forall L acc acc', incl L br -> Q acc acc' ->
      rres Q (foldM (fun cols '(_, vs) => oc <- rank_column g n vs ;; Ok (match oc with Some c => cols ++ [c] | None => cols end)) L acc)
             (foldM (fun cols '(_, vs) => oc <- rank_column g' n vs ;; Ok (match oc with Some c => cols ++ [c] | None => cols end)) L acc')).
    { induction L as [|[k vs] L IH]; intros acc acc' I A; cbn [foldM]; [exact A|].
      assert (J : In (k, vs) br) by (apply I; left; reflexivity). destruct (H k vs J) as [H1 H2].
      assert (C : rres (crel vs) (rank_column g n vs) (rank_column g' n vs)).
      { unfold rank_column. apply (crel_fold n (length vs) [] vs None None); [exact H1|exact H2|].
        split; [tauto|]. split; [reflexivity|]. left. split; reflexivity. }
      destruct (rank_column g n vs) as [oc|e] eqn:RC, (rank_column g' n vs) as [oc'|e'] eqn:RC'; cbn in C; try contradiction; cbn [bind]; [|exact C].
      apply IH; [intros y Hy; apply I; right; exact Hy|]. destruct C as [C1 C2]. destruct oc as [c|], oc' as [c'|].
      - apply Forall2_app; [exact A|]. constructor; [|constructor]. exists k, vs. split; [exact J|]. split; [exact RC|]. split; [exact C1|exact C2].
      - destruct C1 as [_ C1]. discriminate (C1 eq_refl).
      - destruct C1 as [C1 _]. discriminate (C1 eq_refl).
      - exact A. }
    apply K; [apply incl_refl|constructor].
  Qed.
End Columns.

(** ** collate *)
Section Collate.
  Variables (cc : cclass) (topo : graph -> res (list vid)) (ratio : str -> str -> Q).
  Hypothesis TS : by_shape topo.
  Hypothesis TO : topo_ok topo.
  Variables (pre post : collation) (w : witness) (s : str).
  Hypothesis W0 : w_sigil w = [].
  Hypothesis ND : NoDup (map w_sigil (pre ++ w :: post)).
  Hypothesis S0 : s <> [].
  Hypothesis SN : ~ In s (map w_sigil (pre ++ w :: post)).
  Let c := pre ++ under s w :: post.
  Let c' := pre ++ w :: post.
  Let f := swap s [].
  Let E := map w_sigil pre.

  Lemma fi : forall a b, f a = f b -> a = b.
  Proof. apply swap_inj. Qed.
  Lemma fs : f s = [].
  Proof. unfold f. destruct (swap_cases s [] s) as [[_ H]|[[N _]|[N _]]]; congruence. Qed.
  Lemma f_other : forall k, k <> s -> k <> [] -> f k = k.
  Proof. intros k N1 N2. unfold f. destruct (swap_cases s [] k) as [[H _]|[[_ [H _]]|[_ [_ H]]]]; congruence. Qed.
  Lemma unnamed_rest : forall x, In x pre \/ In x post -> w_sigil x <> [] /\ w_sigil x <> s.
  Proof.
    intros x I. split; intros Q.
    - rewrite map_app in ND. cbn [map] in ND. apply NoDup_remove_2 in ND. apply ND. rewrite W0, <- Q. apply in_or_app. destruct I as [I|I]; [left|right]; apply in_map; exact I.
    - apply SN. rewrite map_app. apply in_or_app. cbn [map]. rewrite <- Q. destruct I as [I|I]; [left|right; right]; apply in_map; exact I.
  Qed.
  Lemma wren_rest : forall l, (forall x, In x l -> In x pre \/ In x post) -> map (wren f) l = l.
  Proof.
    intros l H. rewrite <- (map_id l) at 2. apply map_ext_in. intros x I. destruct (unnamed_rest x (H x I)) as [A B]. unfold wren.
    rewrite (f_other (w_sigil x)) by assumption. destruct x; reflexivity.
  Qed.
  Lemma c'_map : c' = map (wren f) c.
  Proof.
    unfold c, c'. rewrite map_app. cbn [map]. rewrite !wren_rest by auto. unfold wren, under. cbn [w_sigil w_toks]. rewrite fs. rewrite <- W0. destruct w; reflexivity.
  Qed.
  Lemma c_sigla : map w_sigil c = E ++ s :: map w_sigil post.
  Proof. unfold c, E. rewrite map_app. reflexivity. Qed.
  Lemma c_nodup : NoDup (map w_sigil c).
  Proof.
    rewrite c_sigla. unfold E. rewrite map_app in ND, SN. cbn [map] in ND, SN. apply NoDup_remove_1 in ND.
    apply NoDup_Add with (a := s) (l := map w_sigil pre ++ map w_sigil post); [apply Add_app|]. split; [exact ND|].
    intros I. apply SN. apply in_or_app. apply in_app_or in I as [I|I]; [left; exact I|right; right; exact I].
  Qed.
  Lemma c_named : ~ In [] (map w_sigil c).
  Proof.
    rewrite c_sigla. unfold E. intros I. apply in_app_or in I as [I|[I|I]]; [|congruence|]; apply in_map_iff in I as [x [Q I]]; destruct (unnamed_rest x) as [K _]; auto.
  Qed.
  Lemma s_E : ~ In s E.
  Proof. intros I. apply in_map_iff in I as [x [Q I]]. destruct (unnamed_rest x) as [_ K]; auto. Qed.

  Lemma on_vertex : forall g W, graph_of g W -> forall v x k l, dget Nat.eqb v (g_verts g) = Some x -> got k (v_tokens x) = Some l ->
    exists p, In p W /\ fst p = k /\ In (v, l) (snd p).
  Proof.
    intros g W GI v x k l D H. rewrite (gi_tokens _ _ GI v x D) in H. apply (dget_In _ str_eqb_ok) in H. apply tokens_on_In in H as [p [H1 [H2 H3]]].
    exists p. split; [exact H1|]. split; [exact H2|]. apply (dget_In _ nat_eqb_ok) in H3. exact H3.
  Qed.
  (** On a vertex the unnamed witness keeps its tokens exactly beside those of earlier witnesses. *)
  Lemma R23 : forall g g' W, graph_of g W -> one_token W -> grel (R2 f s E) g g' -> grel (R3 f s E) g g'.
  Proof.
    intros g g' W GI ONE [V X N Y T]. constructor; try assumption.
    assert (K : forall d d', Forall2 (fun e e' => fst e' = fst e /\ R2 f s E (fst e) (snd e) (snd e')) d d' -> incl d (g_verts g) ->
      Forall2 (fun e e' => fst e' = fst e /\ R3 f s E (fst e) (snd e) (snd e')) d d').
    { intros d d' F. induction F as [|[v x] [v' x'] d d' [H1 H2] F IH]; intros I; constructor; [|apply IH; intros y Hy; apply I; right; exact Hy].
      cbn [fst snd] in *. subst v'. split; [reflexivity|].
      assert (D : dget Nat.eqb v (g_verts g) = Some x) by (apply (In_dget _ nat_eqb_ok); [apply (gi_verts _ _ GI)|apply I; left; reflexivity]).
      destruct H2 as [OT [l0 [l [B1 [B2 B3]]]]]. split; [exact OT|]. split.
      - intros S. destruct B3 as [[-> _]|[_ B3]]; [|contradiction]. cbn [app] in B1. rewrite B1, B2. destruct l; reflexivity.
      - intros NS. assert (Z : l = []); [|subst l; exact B2].
        destruct B3 as [[-> [B3|[B3|B3]]]|[L _]]; [exact B3| |contradiction|].
        + assert (Q : v_tokens x = []).
          { destruct v as [|[|v]]; [|  |lia]; [pose proof (gi_start _ _ GI) as K|pose proof (gi_end _ _ GI) as K]; unfold v_start, v_end in K; rewrite D in K; injection K as ->; reflexivity. }
          rewrite Q in B1. destruct l; [reflexivity|discriminate].
        + destruct l0 as [|t [|? ?]]; try discriminate. cbn [app listed] in B1. destruct (on_vertex g W GI v x s _ D B1) as [p [P1 [_ P2]]].
          pose proof (ONE p v _ P1 P2) as K. destruct l; [reflexivity|discriminate]. }
    apply K; [exact V|apply incl_refl].
  Qed.
  Lemma ff : forall k, f (f k) = k.
  Proof.
    assert (F0 : f [] = s) by (unfold f; destruct (swap_cases s [] []) as [[A B]|[[_ [_ B]]|[_ [A _]]]]; congruence).
    intros k. destruct (str_eqb k s) eqn:Q1; [apply str_eqb_ok in Q1; subst k; rewrite fs; exact F0|].
    destruct (str_eqb k []) eqn:Q2; [apply str_eqb_ok in Q2; subst k; rewrite F0; exact fs|].
    assert (K : f k = k); [|rewrite K; exact K]. apply f_other; intros Z; subst k.
    - rewrite (proj2 (str_eqb_ok s s) eq_refl) in Q1. discriminate.
    - discriminate.
  Qed.

  Lemma graphs_rel : forall o,
    rres (fun a b => grel (R3 f s E) (fst a) (fst b) /\ snd b = snd a) (collate_graph cc topo ratio c o) (collate_graph cc topo ratio c' o).
  Proof.
    intros o. rewrite !collate_graph_finish. destruct (o_astar o); [reflexivity|]. rewrite c'_map, (prepare_ren f fi).
    destruct (prepare c) as [ti|e] eqn:P; cbn [bind]; [|reflexivity]. unfold finish.
    pose proof (prepare_index_ok c ti c_nodup P) as IX. pose proof (ix_wits _ _ IX) as IW. pose proof (prepare_text_ok c ti P) as TX.
    assert (SG : map iw_sigil (ti_wits ti) = E ++ s :: map w_sigil post).
    { rewrite IW, <- c_sigla. apply stamped_sigla. }
    apply map_eq_app in SG as [P1 [P2 [L [L1 L2]]]]. apply map_eq_cons in L2 as [x [P3 [L2 [L3 L4]]]]. subst P2.
    assert (AR : rres (strel (R2 f s E)) (align_all topo (o_filter o) (o_transp o) ti) (align_all topo (o_filter o) (o_transp o) (tiren f ti))).
    { apply (align_rel f fi s E fs S0 s_E topo TS ti (o_filter o) (o_transp o) P1 x P3 L).
      + intros y I. assert (J : In (iw_sigil y) E) by (rewrite <- L1; apply in_map; exact I). split; [|exact J].
        unfold E in J. apply in_map_iff in J as [z [Q J]]. rewrite <- Q. apply unnamed_rest. left. exact J.
      + exact L3.
      + intros y I. assert (J : In (iw_sigil y) (map w_sigil post)) by (rewrite <- L4; apply in_map; exact I).
        assert (J2 := J). apply in_map_iff in J2 as [z [Q J2]]. destruct (unnamed_rest z (or_intror J2)) as [K1 K2]. rewrite <- Q in *. split; [exact K1|]. split; [exact K2|].
        intros I2. pose proof c_nodup as N. rewrite c_sigla in N. apply NoDup_remove_1 in N.
        clear -N I2 J. induction E as [|a l IH]; [destruct I2|]. cbn [app] in N. inversion N as [|? ? M1 M2]; subst. destruct I2 as [->|I2]; [apply M1; apply in_or_app; right; exact J|auto]. }
    destruct (align_all topo (o_filter o) (o_transp o) ti) as [st|e] eqn:AA, (align_all topo (o_filter o) (o_transp o) (tiren f ti)) as [st'|e']; cbn in AR; try contradiction; cbn [bind]; [|exact AR].
    assert (A' : align_all topo (o_filter o) false ti = Ok st) by (destruct (o_transp o); [apply align_all_detect|]; assumption).
    destruct (align_all_inv c ti (o_filter o) IX TX c_named topo TO st A') as [W [AL _]].
    pose proof (one_token_paths _ _ (al_paths _ _ _ _ _ AL)) as ONE. destruct AR as [G _].
    apply (R23 _ _ W (al_graph _ _ _ _ _ AL) ONE) in G. apply rres_eq; [apply (grel_ranking _ topo _ _ TS G)|]. intros rk _.
    destruct (o_segmentation o).
    - destruct (o_near o); [reflexivity|]. cbn [bind].
      eapply rres_bind; [apply (join_rel cc f s E ff fs _ _ W (al_graph _ _ _ _ _ AL) ONE G)|]. intros j j' Hj.
      apply rres_eq; [apply (grel_ranking _ topo _ _ TS Hj)|]. intros rk' _. cbn. split; [exact Hj|reflexivity].
    - apply (rres_bind (both (R3 f s E))); [|intros [g1 r1] [g1' r1'] K; exact K].
      destruct (o_near o); [|split; [exact G|reflexivity]]. apply near_rel; [|exact TS|exact G]. intros v y y' [[Q _] _]. exact Q.
  Qed.

  (** The graph of the collation in which the witness has a name. *)
  Lemma named_parts : forall o g r, o_near o = false -> collate_graph cc topo ratio c o = Ok (g, r) ->
    exists W rk m l, r = ranking_for rk m l /\ graph_of g W /\ rank_ok g rk m l /\ Forall2 carries c W /\
      (forall p q v ts ts', In p W -> In q W -> In (v, ts) (snd p) -> In (v, ts') (snd q) -> map tk_str ts = map tk_str ts').
  Proof.
    intros o g r Hn H1. destruct (result_spec cc topo ratio TO c o g r c_nodup c_named H1) as [ti [st [W1 [W [part RS]]]]].
    destruct (rs_near _ _ _ _ _ _ _ _ _ _ _ RS Hn) as [N0 [rk [m [l [RO Er]]]]].
    pose proof (rs_joined _ _ _ _ _ _ _ _ _ _ _ RS) as JO. pose proof (jo_graph _ _ _ _ _ _ JO) as GI.
    assert (NN : without_near g = g) by (destruct g; cbn in N0; subst; reflexivity). rewrite NN in *.
    exists W, rk, m, l. split; [exact Er|]. split; [exact GI|]. split; [exact RO|]. split; [apply (rs_carries _ _ _ _ _ _ _ _ _ _ _ RS)|].
    intros p q v ts ts' Hp Hq A B.
      rewrite (joined_readings cc _ _ _ _ _ _ _ _ (rs_aligner _ _ _ _ _ _ _ _ _ _ _ RS) JO p v ts Hp A).
      rewrite (joined_readings cc _ _ _ _ _ _ _ _ (rs_aligner _ _ _ _ _ _ _ _ _ _ _ RS) JO q v ts' Hq B). reflexivity.
  Qed.

  Lemma same_mapped : forall y, same_cell y (option_map (map (mt f)) y).
  Proof. intros [l|]; cbn; [apply mt_tokens|exact I]. Qed.
  Lemma graphs_unnamed : forall g g', grel (R3 f s E) g g' -> unnamed_graph s E g g'.
  Proof.
    intros g g' G. split; [apply (ge_edges _ _ _ G)|]. split; [apply (ge_near _ _ _ G)|]. pose proof (ge_verts _ _ _ G) as V. clear G. induction V as [|[v x] [v' x'] d d' [H1 H2] F IH]; constructor; [|exact IH].
    cbn [fst snd] in *. split; [exact H1|]. destruct H2 as [[L [_ [_ OT]]] [V1 V2]]. split; [exact L|]. split; [|split].
    - intros k N1 N2. rewrite <- (f_other k N1 N2) at 2. rewrite (OT k N1). apply same_mapped.
    - intros S. rewrite (V1 S). apply same_mapped.
    - intros NS. apply V2. intros [u [U1 U2]]. apply U2. apply NS. exact U1.
  Qed.

  Theorem graph_unnamed : forall o, o_output o = lit "graph" ->
    match collate cc topo ratio c o with
    | Ok (OGraph g) => exists g', collate cc topo ratio c' o = Ok (OGraph g') /\ unnamed_graph s E g g'
    | Ok _ => False
    | Raise e => collate cc topo ratio c' o = Raise e
    end.
  Proof.
    intros o T. pose proof (graphs_rel o) as H. unfold collate.
    destruct (collate_graph cc topo ratio c o) as [[g rk]|e] eqn:CG, (collate_graph cc topo ratio c' o) as [[g' rk']|e'] eqn:CG'; cbn in H; try contradiction; [|subst; reflexivity].
    destruct H as [G Er]. cbn [fst snd] in G, Er. subst rk'. cbn [bind]. unfold render. rewrite T.
    change (str_eqb (lit "graph") (lit "svg")) with false. change (str_eqb (lit "graph") (lit "svg_simple")) with false.
    change (str_eqb (lit "graph") (lit "graph")) with true. cbv iota. eexists. split; [reflexivity|].
    apply (graphs_unnamed g g' G).
  Qed.

  (** ** The table *)
  Lemma sigla_nth : forall j sg, nth_error (map w_sigil c) j = Some sg -> (j = length pre <-> sg = s).
  Proof.
    intros j sg H. assert (K : nth_error (map w_sigil c) (length pre) = Some s).
    { rewrite c_sigla. unfold E. rewrite nth_error_app2 by (rewrite map_length; apply le_n). rewrite map_length, Nat.sub_diag. reflexivity. }
    split; intros Q.
    - subst j. congruence.
    - subst sg. pose proof c_nodup as N. rewrite NoDup_nth_error in N. apply N; [apply nth_error_Some; congruence|congruence].
  Qed.
  Theorem table_unnamed : forall o, o_near o = false -> o_output o = lit "table" ->
    match collate cc topo ratio c o with
    | Ok (OTable t) => exists t', collate cc topo ratio c' o = Ok (OTable t') /\ unnamed_table (length pre) t t'
    | Ok _ => False
    | Raise e => collate cc topo ratio c' o = Raise e
    end.
  Proof.
    intros o Hn T. pose proof (graphs_rel o) as H. unfold collate.
    destruct (collate_graph cc topo ratio c o) as [[g rk]|e] eqn:CG, (collate_graph cc topo ratio c' o) as [[g' rk']|e'] eqn:CG'; cbn in H; try contradiction; [|subst; reflexivity].
    destruct H as [G Er]. cbn [fst snd] in G, Er. subst rk'. cbn [bind]. unfold render. rewrite T.
    change (str_eqb (lit "table") (lit "svg")) with false. change (str_eqb (lit "table") (lit "svg_simple")) with false.
    change (str_eqb (lit "table") (lit "graph")) with false. change (str_eqb (lit "table") (lit "json")) with false.
    change (str_eqb (lit "table") (lit "html")) with false. change (str_eqb (lit "table") (lit "html2")) with false.
    change (str_eqb (lit "table") (lit "table")) with true. cbv iota.
    destruct (named_parts o g rk Hn CG) as [W [rk0 [m [l [Er [GI [RO [CA STR]]]]]]]]. subst rk.
    assert (UQ : forall r vs k, In (r, vs) (by_rank (ranking_for rk0 m l)) -> forall v1 x1 v2 x2, In v1 vs -> In v2 vs -> get_vertex g v1 = Ok x1 -> get_vertex g v2 = Ok x2 ->
       got k (v_tokens x1) <> None -> got k (v_tokens x2) <> None -> v1 = v2).
    { intros r vs k I v1 x1 v2 x2 I1 I2 D1 D2 K1 K2. destruct (ranks_vs g W rk0 m l GI RO r vs I) as [_ RV].
      apply RV in I1 as [_ I1]. apply RV in I2 as [_ I2].
      assert (DD : forall v x, get_vertex g v = Ok x -> dget Nat.eqb v (g_verts g) = Some x).
      { intros v x D. unfold get_vertex, dgetE in D. destruct (dget Nat.eqb v (g_verts g)); congruence. }
      destruct (got k (v_tokens x1)) as [l1|] eqn:Q1; [|congruence]. destruct (got k (v_tokens x2)) as [l2|] eqn:Q2; [|congruence].
      destruct (on_vertex g W GI v1 x1 k l1 (DD _ _ D1) Q1) as [p [P1 [P2 P3]]]. destruct (on_vertex g W GI v2 x2 k l2 (DD _ _ D2) Q2) as [q [Q3 [Q4 Q5]]].
      assert (p = q) by (apply (sigil_unique g W GI); congruence). subst q.
      pose proof (path_sorted g W rk0 m l GI RO p P1) as SS. clear -SS P3 Q5 I1 I2.
      induction SS as [|a L SS IH F]; [destruct P3|]. rewrite Forall_forall in F. destruct P3 as [->|P3], Q5 as [Q5|Q5].
      - congruence.
      - apply F in Q5. cbn [fst] in Q5. lia.
      - subst a. apply F in P3. cbn [fst] in P3. lia.
      - apply IH; assumption. }
    unfold construct_table. replace (length (map w_sigil c')) with (length (map w_sigil c)) by (unfold c, c'; rewrite !map_length, !app_length; reflexivity).
    pose proof (columns_rel f s E g g' G (length (map w_sigil c)) (by_rank (ranking_for rk0 m l))) as CR.
    match type of CR with ?A -> _ => assert (CP : A) end.
    { intros r vs I. destruct (ranks_vs g W rk0 m l GI RO r vs I) as [RN _]. split; [exact RN|]. apply (UQ r vs s I). }
    specialize (CR CP). clear CP.
    destruct (construct_columns g (length (map w_sigil c)) (by_rank (ranking_for rk0 m l))) as [cols|e] eqn:CC,
      (construct_columns g' (length (map w_sigil c)) (by_rank (ranking_for rk0 m l))) as [cols'|e'] eqn:CC'; cbn [rres] in CR; try contradiction; cbn [bind]; [|congruence].
    eexists. split; [reflexivity|]. split; [symmetry; clear -CR; cbn [t_columns]; induction CR; cbn; congruence|].
    split; [cbn [t_rows]; unfold c, c'; rewrite !map_length, !app_length; reflexivity|]. cbn [t_rows]. intros j r r' Rj Rj'.
    assert (SJ : exists sg, nth_error (map w_sigil c) j = Some sg /\ r = construct_row cols sg /\ r' = construct_row cols' (f sg)).
    { rewrite nth_error_map in Rj, Rj'. destruct (nth_error (map w_sigil c) j) as [sg|] eqn:NS; [|discriminate]. exists sg. split; [reflexivity|].
      replace (map w_sigil c') with (map f (map w_sigil c)) in Rj' by (rewrite c'_map, !map_map; reflexivity). rewrite nth_error_map, NS in Rj'.
      cbn [option_map] in Rj, Rj'. split; congruence. }
    destruct SJ as [sg [NS [-> ->]]]. clear Rj Rj'. cbn [construct_row r_cells]. split; [rewrite !map_length; clear -CR; induction CR; cbn; congruence|].
    intros i x x' Hx Hx'. rewrite nth_error_map in Hx, Hx'.
    destruct (nth_error cols i) as [col|] eqn:NC; [|discriminate]. destruct (nth_error cols' i) as [col'|] eqn:NC'; [|discriminate]. cbn [option_map] in Hx, Hx'. injection Hx as <-. injection Hx' as <-.
    assert (CX : exists r vs, In (r, vs) (by_rank (ranking_for rk0 m l)) /\ rank_column g (length (map w_sigil c)) vs = Ok (Some col) /\ crel f s E g g' vs (Some col) (Some col')).
    { clear -CR NC NC'. revert i NC NC'. induction CR as [|a b la lb H F IH]; intros [|i] A B; try discriminate; cbn in A, B; [|eauto]. injection A as ->. injection B as ->. exact H. }
    destruct CX as [rr [vs [I [RC [_ [CO CU]]]]]]. cbn [cells_of_col] in CO, CU.
    pose proof (sigla_nth j sg NS) as JS. destruct (j =? length pre) eqn:JE.
    - apply Nat.eqb_eq in JE. apply JS in JE. subst sg. rewrite fs. destruct CU as [[_ CU]|[v [y [y' [V1 [V2 [V3 [V4 [V5 [V6 [V7 V8]]]]]]]]]]]; [left; exact CU|].
      assert (D : dget Nat.eqb v (g_verts g) = Some y) by (unfold get_vertex, dgetE in V3; destruct (dget Nat.eqb v (g_verts g)); congruence).
      destruct V5 as [_ [VA VB]].
      destruct (got s (v_tokens y)) as [ls|] eqn:LS; [|congruence].
      destruct (existsb (fun u => match got u (v_tokens y) with Some _ => true | None => false end) E) eqn:EX.
      + right. apply existsb_exists in EX as [u [U1 U2]]. destruct (got u (v_tokens y)) as [l2|] eqn:LU; [|discriminate].
        assert (SH : shared E y) by (exists u; split; [exact U1|congruence]). rewrite V8, (VA SH), V7. cbn [option_map]. split; [apply (same_mapped (Some ls))|].
        unfold E in U1. apply in_map_iff in U1 as [wu [EU U1]]. apply In_nth_error in U1 as [ju U1].
        assert (JL : ju < length pre) by (apply nth_error_Some; congruence).
        exists ls, ju, (construct_row cols u), l2. split; [reflexivity|]. split; [exact JL|]. split.
        * rewrite nth_error_map, nth_error_map. unfold c. rewrite nth_error_app1 by exact JL. rewrite U1. cbn [option_map]. rewrite EU. reflexivity.
        * split.
          -- cbn [construct_row r_cells]. rewrite nth_error_map, NC. cbn [option_map]. f_equal.
             change (c_cells col) with (cells_of_col (Some col)). unfold rank_column in RC.
             apply (column_holds f s E g g' G _ _ vs None (Some col) RC v y u l2 V1 V2 V3 LU). intros v1 x1 I1 G1 K1.
             apply (UQ rr vs u I v1 x1 v y I1 V1 G1 V3 K1). congruence.
          -- destruct (on_vertex g W GI v y u l2 D LU) as [p [P1 [_ P2]]]. destruct (on_vertex g W GI v y s ls D LS) as [q [Q1 [_ Q2]]].
             apply (STR p q v l2 ls P1 Q1 P2 Q2).
      + left. rewrite V8. apply VB. intros [u [U1 U2]]. assert (EX' : existsb (fun u => match got u (v_tokens y) with Some _ => true | None => false end) E = true).
        { apply existsb_exists. exists u. split; [exact U1|]. destruct (got u (v_tokens y)); congruence. }
        congruence.
    - apply Nat.eqb_neq in JE. assert (N : sg <> s) by (intros Q; apply JE; apply JS; exact Q). rewrite (CO sg N). apply same_mapped.
  Qed.
End Collate.
