(** A witness without a name: joining (C42). *)
From Verif Require Import Py Lib TokenModel SuffixModel IndexModel GraphModel AlignModel TableModel NearModel ExportModel
  CollateModel GraphSpec GraphProof MergeProof AlignerProof JoinProof ParamSpec ParamProof RenameSpec RenameProof UnnamedSpec UnnamedProof.
From Coq Require Import QArith.
Open Scope list_scope.
Open Scope nat_scope.
Notation got k d := (dget str_eqb k d).

(** ** Adding the first token of each witness of another vertex *)
Definition first_of (y : option (list token)) : list token := match y with Some (t :: _) => [t] | _ => [] end.
Definition plus_first (x y : option (list token)) : option (list token) :=
  match y with Some (t :: _) => Some (match x with Some l => l | None => [] end ++ [t]) | _ => x end.
Lemma add_got : forall x sg t k, got k (v_tokens (vertex_add_token x sg t)) = if str_eqb k sg then plus_first (got sg (v_tokens x)) (Some [t]) else got k (v_tokens x).
Proof.
  intros x sg t k. unfold vertex_add_token. cbn [v_tokens]. destruct (str_eqb k sg) eqn:Q.
  - apply str_eqb_ok in Q. subst k. destruct (got sg (v_tokens x)); rewrite (dget_set_same _ str_eqb_ok); reflexivity.
  - assert (k <> sg) by (intros ->; rewrite (proj2 (str_eqb_ok sg sg) eq_refl) in Q; discriminate).
    destruct (got sg (v_tokens x)); apply (dget_set_other _ str_eqb_ok); congruence.
Qed.
Lemma add_nodup : forall x sg t, NoDup (map fst (v_tokens x)) -> NoDup (map fst (v_tokens (vertex_add_token x sg t))).
Proof. intros x sg t N. unfold vertex_add_token. cbn [v_tokens]. destruct (got sg (v_tokens x)); apply (dset_NoDup _ str_eqb_ok); exact N. Qed.
Lemma add_all : forall d x, NoDup (map fst d) -> NoDup (map fst (v_tokens x)) -> (forall k l, In (k, l) d -> l <> []) ->
  exists x', foldM (fun vx '(sg, ts) => t <- aget ts 0 ;; Ok (vertex_add_token vx sg t)) d x = Ok x' /\
    v_label x' = v_label x /\ NoDup (map fst (v_tokens x')) /\ forall k, got k (v_tokens x') = plus_first (got k (v_tokens x)) (got k d).
Proof.
  induction d as [|[sg ts] d IH]; intros x N1 N2 NE; [exists x; split; [reflexivity|]; auto|]. cbn [map fst] in N1. inversion N1 as [|? ? M1 M2]; subst.
  destruct ts as [|t ts]; [exfalso; apply (NE sg []); [left; reflexivity|reflexivity]|]. cbn [foldM]. change (aget (t :: ts) 0) with (Ok t). cbn [bind].
  destruct (IH (vertex_add_token x sg t) M2 (add_nodup x sg t N2)) as [x' [H1 [H2 [H3 H4]]]]; [intros k l I; apply (NE k); right; exact I|].
  exists x'. split; [exact H1|]. split; [exact H2|]. split; [exact H3|]. intros k. rewrite H4, add_got. cbn [dget]. destruct (str_eqb k sg) eqn:Q; [|reflexivity].
  apply str_eqb_ok in Q. subst k. destruct (got sg d) as [l|] eqn:D; [|reflexivity]. exfalso. apply M1. apply (dget_In _ str_eqb_ok) in D. apply in_map_iff. exists (sg, l). auto.
Qed.

Section Join.
  Variables (cc : cclass) (f : str -> str) (s : str) (E : list str).
  Hypothesis Fi : forall a b, f a = f b -> a = b.
  Hypothesis Ff : forall k, f (f k) = k.
  Hypothesis Fs : f s = [].
  Hypothesis SE : ~ In s E.

  (** The tokens of the unnamed witness are there exactly on shared vertices. *)
  Definition R3 (v : vid) (x x' : vertex) : Prop :=
    others f s x x' /\ (shared E x -> got [] (v_tokens x') = option_map (map (mt f)) (got s (v_tokens x))) /\ (~ shared E x -> got [] (v_tokens x') = None).
  Lemma shared_dec : forall x, shared E x \/ ~ shared E x.
  Proof.
    intros x. destruct (existsb (fun u => match got u (v_tokens x) with Some _ => true | None => false end) E) eqn:EX.
    - left. apply existsb_exists in EX as [u [U1 U2]]. exists u. split; [exact U1|]. destruct (got u (v_tokens x)); congruence.
    - right. intros [u [U1 U2]]. assert (T : existsb (fun u => match got u (v_tokens x) with Some _ => true | None => false end) E = true).
      { apply existsb_exists. exists u. split; [exact U1|]. destruct (got u (v_tokens x)); congruence. }
      congruence.
  Qed.
  Lemma plus_mapped : forall x y, plus_first (option_map (map (mt f)) x) (option_map (map (mt f)) y) = option_map (map (mt f)) (plus_first x y).
  Proof. intros x [[|t l]|]; [reflexivity| |reflexivity]. destruct x; cbn; [rewrite map_app|]; reflexivity. Qed.

  Lemma pair_rel : forall v w x x' y y', R3 v x x' -> R3 w y y' -> (shared E x <-> shared E y) -> (forall k l, got k (v_tokens y) = Some l -> l <> []) ->
    rres (R3 v)
     (foldM (fun vx '(sg, ts) => t <- aget ts 0 ;; Ok (vertex_add_token vx sg t)) (v_tokens y) {| v_label := join_labels cc (v_label x) (v_label y); v_tokens := v_tokens x |})
     (foldM (fun vx '(sg, ts) => t <- aget ts 0 ;; Ok (vertex_add_token vx sg t)) (v_tokens y') {| v_label := join_labels cc (v_label x') (v_label y'); v_tokens := v_tokens x' |}).
  Proof.
    intros v w x x' y y' [[L [N [N' O]]] [X1 X2]] [[M [P [P' Q]]] [Y1 Y2]] SH NE.
    assert (NE' : forall k l, got k (v_tokens y') = Some l -> l <> []).
    { intros k l D. destruct (str_eqb (f k) s) eqn:K.
      - apply str_eqb_ok in K. assert (k = []) by (rewrite <- (Ff k), K; exact Fs). subst k. destruct (shared_dec y) as [S|S].
        + rewrite (Y1 S) in D. destruct (got s (v_tokens y)) as [ls|] eqn:Z; [|discriminate]. cbn [option_map] in D. apply NE in Z. destruct ls; [congruence|]. injection D as <-. discriminate.
        + rewrite (Y2 S) in D. discriminate.
      - assert (f k <> s) by (intros Z; rewrite Z, (proj2 (str_eqb_ok s s) eq_refl) in K; discriminate).
        specialize (Q (f k) H). rewrite Ff in Q. rewrite Q in D. destruct (got (f k) (v_tokens y)) as [ls|] eqn:Z; [|discriminate]. cbn [option_map] in D. apply NE in Z. destruct ls; [congruence|]. injection D as <-. discriminate. }
    assert (IG : forall d : list (str * list token), NoDup (map fst d) -> (forall k l, got k d = Some l -> l <> []) -> forall k l, In (k, l) d -> l <> []).
    { intros d ND H k l I. apply (H k). apply (In_dget _ str_eqb_ok); assumption. }
    destruct (add_all (v_tokens y) {| v_label := join_labels cc (v_label x) (v_label y); v_tokens := v_tokens x |} P N (IG _ P NE)) as [z [Z1 [Z2 [Z3 Z4]]]].
    destruct (add_all (v_tokens y') {| v_label := join_labels cc (v_label x') (v_label y'); v_tokens := v_tokens x' |} P' N' (IG _ P' NE')) as [z' [Z1' [Z2' [Z3' Z4']]]].
    rewrite Z1, Z1'. cbn [rres]. cbn [v_label v_tokens] in *.
    assert (SZ : shared E z <-> shared E x).
    { split.
      - intros [u [U1 U2]]. rewrite Z4 in U2. destruct (got u (v_tokens x)) eqn:D; [exists u; split; congruence|]. apply SH. exists u. split; [exact U1|]. intros K. rewrite K in U2. apply U2. reflexivity.
      - intros [u [U1 U2]]. exists u. split; [exact U1|]. rewrite Z4. destruct (got u (v_tokens x)); [|congruence]. destruct (got u (v_tokens y)) as [[|? ?]|]; discriminate. }
    split; [split; [|split; [|split]]|split].
    - congruence.
    - exact Z3.
    - exact Z3'.
    - intros k K. rewrite Z4, Z4', (O k K), (Q k K). apply plus_mapped.
    - intros S. apply SZ in S. rewrite Z4, Z4', (X1 S), (Y1 (proj1 SH S)). apply plus_mapped.
    - intros S. assert (SX : ~ shared E x) by (intros K; apply S, SZ, K). rewrite Z4', (X2 SX), Y2; [reflexivity|]. intros K. apply SX, SH, K.
  Qed.

  Lemma grel_out : forall R g g' v, grel R g g' -> map fst (out_edges g' v) = map fst (out_edges g v).
  Proof. intros R g g' v G. unfold out_edges. apply (ends (fun p => fst p =? v)). apply (ge_edges _ _ _ G). Qed.
  Lemma grel_in : forall R g g' v, grel R g g' -> map fst (in_edges g' v) = map fst (in_edges g v).
  Proof. intros R g g' v G. unfold in_edges. apply (ends (fun p => snd p =? v)). apply (ge_edges _ _ _ G). Qed.
  Lemma remove_edge_rel : forall R g g' u v, grel R g g' -> rres (grel R) (remove_edge g u v) (remove_edge g' u v).
  Proof.
    intros R g g' u v [V X N Y T]. unfold remove_edge. rewrite (dmem_fst _ _ _ X). destruct (dmem edge_eqb (u, v) (g_edges g)); [|reflexivity].
    cbn. constructor; cbn [g_verts g_edges g_near g_next]; try assumption. apply ddel_fst. exact X.
  Qed.
  Lemma remove_node_rel : forall R g g' v, grel R g g' -> rres (grel R) (remove_node g v) (remove_node g' v).
  Proof.
    intros R g g' v [V X N Y T]. unfold remove_node.
    assert (M : dmem Nat.eqb v (g_verts g') = dmem Nat.eqb v (g_verts g)).
    { clear -V. induction V as [|[k x] [k' x'] d d' [H1 H2] F IH]; [reflexivity|]. cbn [fst] in H1. subst k'. unfold dmem in *. cbn [dget]. destruct (v =? k); [reflexivity|exact IH]. }
    rewrite M. destruct (dmem Nat.eqb v (g_verts g)); [|reflexivity].
    cbn. constructor; cbn [g_verts g_edges g_near g_next]; try assumption.
    - clear -V. induction V as [|[k x] [k' x'] d d' [H1 H2] F IH]; [constructor|]. cbn [fst snd] in *. subst k'. cbn [ddel]. destruct (v =? k); [exact F|]. constructor; [split; [reflexivity|exact H2]|exact IH].
    - apply (ends (fun p => negb (fst p =? v) && negb (snd p =? v))). exact X.
  Qed.

  (** In a graph of paths a joinable pair is on the same paths. *)
  Lemma pair_shared : forall g W v cand x y, graph_of g W -> joinable g v cand -> (forall p ts, In p W -> In (cand, ts) (snd p) -> exists t, ts = [t]) ->
    dget Nat.eqb v (g_verts g) = Some x -> dget Nat.eqb cand (g_verts g) = Some y ->
    (shared E x <-> shared E y) /\ forall k l, got k (v_tokens y) = Some l -> l <> [].
  Proof.
    intros g W v cand x y GI [J1 [J2 [J3 J4]]] HS DX DY.
    pose proof (path_cases g W v cand GI J3 J4 J2 J1 HS) as PC.
    assert (ON : forall u z k, dget Nat.eqb u (g_verts g) = Some z -> (got k (v_tokens z) <> None <-> exists p, In p W /\ fst p = k /\ In u (map fst (snd p)))).
    { intros u z k D. rewrite (gi_tokens _ _ GI u z D). split.
      - intros K. destruct (got k (tokens_on W u)) as [l|] eqn:Q; [|congruence]. apply (dget_In _ str_eqb_ok) in Q. apply tokens_on_In in Q as [p [H1 [H2 H3]]].
        exists p. split; [exact H1|]. split; [exact H2|]. apply (dget_In _ nat_eqb_ok) in H3. apply in_map_iff. exists (u, l). auto.
      - intros [p [H1 [H2 H3]]] Q. apply (dget_None _ str_eqb_ok) in Q. apply Q. destruct (dget Nat.eqb u (snd p)) as [l|] eqn:Z.
        + apply in_map_iff. exists (k, l). split; [reflexivity|]. apply tokens_on_In. exists p. auto.
        + apply (dget_None _ nat_eqb_ok) in Z. contradiction. }
    split.
    - unfold shared. split; intros [u [U1 U2]]; exists u; (split; [exact U1|]).
      + apply (ON v x u DX) in U2 as [p [H1 [H2 H3]]]. apply (ON cand y u DY). exists p. split; [exact H1|]. split; [exact H2|].
        destruct (PC p H1) as [[O1 _]|[l1 [ts [t [l2 [T _]]]]]]; [contradiction|]. rewrite T, map_app. apply in_or_app. right. right. left. reflexivity.
      + apply (ON cand y u DY) in U2 as [p [H1 [H2 H3]]]. apply (ON v x u DX). exists p. split; [exact H1|]. split; [exact H2|].
        destruct (PC p H1) as [[_ O1]|[l1 [ts [t [l2 [T _]]]]]]; [contradiction|]. rewrite T, map_app. apply in_or_app. right. left. reflexivity.
    - intros k l D. rewrite (gi_tokens _ _ GI cand y DY) in D. apply (dget_In _ str_eqb_ok) in D. apply tokens_on_In in D as [p [H1 [_ H3]]].
      apply (dget_In _ nat_eqb_ok) in H3. destruct (HS p l H1 H3) as [t ->]. discriminate.
  Qed.

  Lemma absorb_rel : forall g g' W v cand, graph_of g W -> joinable g v cand -> (forall p ts, In p W -> In (cand, ts) (snd p) -> exists t, ts = [t]) ->
    grel R3 g g' -> rres (grel R3) (absorb cc g cand v) (absorb cc g' cand v).
  Proof.
    intros g g' W v cand GI J HS G. unfold absorb. apply (rres_bind (grel R3)).
    - unfold join_vertices. pose proof (rel_get _ v _ _ (ge_verts _ _ _ G)) as RV. pose proof (rel_get _ cand _ _ (ge_verts _ _ _ G)) as RC.
      unfold get_vertex in *. unfold dgetE in *.
      destruct (dget Nat.eqb v (g_verts g)) as [x|] eqn:DX, (dget Nat.eqb v (g_verts g')) as [x'|] eqn:DX'; cbn in RV; try contradiction; cbn [bind]; [|reflexivity].
      destruct (dget Nat.eqb cand (g_verts g)) as [y|] eqn:DY, (dget Nat.eqb cand (g_verts g')) as [y'|] eqn:DY'; cbn in RC; try contradiction; cbn [bind]; [|reflexivity].
      destruct (pair_shared g W v cand x y GI J HS DX DY) as [S1 S2]. apply (rres_bind (R3 v)); [apply (pair_rel v cand); assumption|].
      intros z z' Z. cbn. destruct G as [V X N Y T]. constructor; cbn [update_vertex g_verts g_edges g_near g_next]; try assumption. apply rel_set; assumption.
    - clear g g' W GI J HS G. intros g g' G. apply (rres_bind (grel R3)).
      + eapply foldM_rel; [apply Forall2_fst; apply (grel_out R3); exact G|exact G|]. intros a a' x x' Ha Hx. rewrite Hx.
        eapply rres_bind; [apply remove_edge_rel; exact Ha|]. intros b b' Hb. cbn. apply connect_rel. exact Hb.
      + clear g g' G. intros g g' G. eapply rres_bind; [apply remove_edge_rel; exact G|]. intros a b Hab. apply remove_node_rel. exact Hab.
  Qed.

  Lemma join_loop_rel : forall g0 W0 fuel g g' W part q p, jinv cc g0 W0 g W part q p -> grel R3 g g' ->
    rres (grel R3) (join_loop cc fuel g q p) (join_loop cc fuel g' q p).
  Proof.
    intros g0 W0. induction fuel as [|n IH]; intros g g' W part q p JI G; destruct q as [|v q]; cbn [join_loop]; try exact G; try reflexivity.
    destruct (join_round cc g0 W0 g W part v q p JI) as [MV [VS [RO RA]]].
    pose proof (jo_graph _ _ _ _ _ _ (ji_joined _ _ _ _ _ _ _ _ JI)) as GI.
    assert (M : dmem Nat.eqb v (g_verts g') = true).
    { apply (dmem_In _ nat_eqb_ok). change (In v (vertices g')). rewrite (grel_vertices _ _ _ G). apply (dmem_In _ nat_eqb_ok). exact MV. }
    rewrite M, MV. cbn [negb]. pose proof (joinable_model g v (gi_edges_nodup _ _ GI)) as JM.
    assert (O : (forall c, ~ joinable g v c) -> rres (grel R3) (join_loop cc n g (fold_left (fun q e => if existsb (Nat.eqb (snd (fst e))) (v :: p) then q else snd (fst e) :: q) (out_edges g v) q) (v :: p))
                          (join_loop cc n g' (fold_left (fun q e => if existsb (Nat.eqb (snd (fst e))) (v :: p) then q else snd (fst e) :: q) (out_edges g' v) q) (v :: p))).
    { intros NJ. rewrite (fold_ends (fun q nb => if existsb (Nat.eqb nb) (v :: p) then q else nb :: q) _ _ q (grel_out _ _ _ v G)). destruct (RO NJ) as [R1 _].
      pose proof (push_spec (v :: p) (out_edges g v) q) as PS. cbv zeta in PS. rewrite PS. apply (IH g g' W part); assumption. }
    pose proof (grel_out _ _ _ v G) as X. destruct (out_edges g v) as [|[[u cand] l] [|e2 oe]], (out_edges g' v) as [|[[u' cand'] l'] [|e2' oe']]; try discriminate X; try exact (O JM).
    cbn [map fst] in X. injection X as X1 X2. subst u' cand'. rewrite <- (map_length fst (in_edges g' cand)), (grel_in _ _ _ cand G), map_length.
    destruct (negb (cand =? v_end) && (length (in_edges g cand) =? 1)); [|exact (O JM)].
    destruct (RA cand (JM VS)) as [PC [g1 [A1 [A2 _]]]].
    assert (HS : forall q ts, In q W -> In (cand, ts) (snd q) -> exists t, ts = [t]).
    { intros w ts I1 I2. destruct (Forall2_In_r _ _ _ _ (jo_paths _ _ _ _ _ _ (ji_joined _ _ _ _ _ _ _ _ JI)) I1) as [w0 [_ [_ [_ LE]]]].
      specialize (LE cand ts I2). rewrite PC in LE. destruct ts as [|t [|? ?]]; try discriminate. eauto. }
    pose proof (absorb_rel g g' W v cand GI (JM VS) HS G) as AB. rewrite A1 in AB |- *. destruct (absorb cc g' cand v) as [g1'|e]; cbn in AB; [|contradiction]. cbn [bind].
    apply (IH g1 g1' _ _ _ _ A2 AB).
  Qed.
  Lemma join_rel : forall g g' W, graph_of g W -> one_token W -> grel R3 g g' -> rres (grel R3) (join cc g) (join cc g').
  Proof.
    intros g g' W GI ONE G. unfold join. destruct (join_start cc g W GI ONE) as [JS _].
    replace (fold_left (fun q e => snd (fst e) :: q) (out_edges g' v_start) []) with (fold_left (fun q e => snd (fst e) :: q) (out_edges g v_start) [])
      by (symmetry; apply (fold_ends (fun q nb => nb :: q)); apply (grel_out R3); exact G).
    replace (join_fuel g') with (join_fuel g).
    - apply (join_loop_rel g W (join_fuel g) g g' W (fun v => [v])); assumption.
    - unfold join_fuel. do 2 f_equal.
      + f_equal. pose proof (ge_verts _ _ _ G) as V. clear -V. induction V; cbn; congruence.
      + f_equal. rewrite <- (map_length fst (g_edges g')), (ge_edges _ _ _ G), map_length. reflexivity.
  Qed.
End Join.

(** ** Near matching looks at labels, edges and ranks only *)
Section Near.
  Variables (R : vid -> vertex -> vertex -> Prop) (topo : graph -> res (list vid)) (ratio : str -> str -> Q).
  Hypothesis RL : forall v x x', R v x x' -> v_label x' = v_label x.
  Hypothesis TS : by_shape topo.
  Lemma best_rel : forall g g' src cands, grel R g g' -> best_candidate ratio g' src cands = best_candidate ratio g src cands.
  Proof.
    intros g g' src cands G. unfold best_candidate. pose proof (rel_get _ src _ _ (ge_verts _ _ _ G)) as H. unfold get_vertex.
    destruct (dgetE Nat.eqb src (g_verts g)) as [x|e], (dgetE Nat.eqb src (g_verts g')) as [x'|e']; cbn in H; try contradiction; cbn [bind]; [|congruence].
    apply RL in H. f_equal. apply foldM_same. intros s c _. pose proof (rel_get _ c _ _ (ge_verts _ _ _ G)) as K.
    destruct (dgetE Nat.eqb c (g_verts g)) as [y|e], (dgetE Nat.eqb c (g_verts g')) as [y'|e']; cbn in K; try contradiction; cbn [bind]; [|congruence].
    apply RL in K. unfold vertex_str. rewrite H, K. reflexivity.
  Qed.
  Definition both (a b : graph * ranking) : Prop := grel R (fst a) (fst b) /\ snd b = snd a.
  Lemma near_edge_rel : forall st st' e e', both st st' -> fst e' = fst e -> rres both (near_edge_step topo ratio st e) (near_edge_step topo ratio st' e').
  Proof.
    intros [g r] [g' r'] [[src v] l] [p l'] [G E] Ee. cbn [fst snd] in *. subst r' p. unfold near_edge_step.
    destruct (dgetE Nat.eqb v (by_vertex r)) as [rv|e]; cbn [bind]; [|reflexivity].
    destruct (dgetE Nat.eqb src (by_vertex r)) as [rs|e]; cbn [bind]; [|reflexivity].
    destruct (Z.ltb 1 (Z.of_nat rv - Z.of_nat rs)); [|split; [exact G|reflexivity]].
    match goal with |- rres _ (bind (mapM ?h (out_edges g src)) _) _ => assert (EM : mapM h (out_edges g' src) = mapM h (out_edges g src)) end.
    { pose proof (grel_out R _ _ src G) as E. revert E. generalize (out_edges g src) (out_edges g' src). clear.
      induction l as [|x l IH]; intros [|x' l'] E; try discriminate; [reflexivity|]. injection E as E1 E2. cbn [mapM]. rewrite E1, (IH _ E2). reflexivity. }
    rewrite EM. destruct (mapM _ (out_edges g src)) as [ds|e]; cbn [bind]; [|reflexivity]. destruct (existsb (Z.eqb 1) ds); [split; [exact G|reflexivity]|].
    destruct (mapM _ (seq rs (rv - rs))) as [ls|e]; cbn [bind]; [|reflexivity]. rewrite (best_rel g g') by exact G.
    destruct (best_candidate ratio g src _) as [[w q]|e]; cbn [bind]; [|reflexivity].
    assert (G' : grel R (connect_near g w src q) (connect_near g' w src q)).
    { destruct G as [V E N X T]. constructor; cbn [connect_near g_verts g_edges g_near g_next]; try assumption; congruence. }
    rewrite (grel_ranking R topo _ _ TS G'). destruct (ranking_of topo (connect_near g w src q)); cbn; [split; [exact G'|reflexivity]|reflexivity].
  Qed.
  Lemma near_rel : forall g g' r, grel R g g' -> rres both (perform_near_match topo ratio g r) (perform_near_match topo ratio g' r).
  Proof.
    intros g g' r G. unfold perform_near_match. rewrite (TS g g' (grel_vertices _ _ _ G) (ge_edges _ _ _ G)). destruct (topo g) as [order|e]; cbn [bind]; [|reflexivity].
    apply (rres_bind both).
    - eapply (foldM_rel eq); [|split; [exact G|reflexivity]|].
      + clear. induction (rev order); constructor; auto.
      + intros a b v v' Hab <-. eapply foldM_rel; [apply Forall2_fst; apply (grel_in R); apply (proj1 Hab)|exact Hab|]. intros. apply near_edge_rel; assumption.
    - intros [a ra] [b rb] [H1 H2]. cbn [fst snd] in *. rewrite (grel_ranking R topo _ _ TS H1). destruct (ranking_of topo a); cbn; [split; [exact H1|reflexivity]|reflexivity].
  Qed.
End Near.
