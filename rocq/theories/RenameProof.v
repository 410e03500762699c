(** Renaming the witnesses: the pipeline run on both collations in step. *)
From Verif Require Import Py Lib TokenModel SuffixModel IndexModel GraphModel AlignModel TableModel NearModel ExportModel
  CollateModel GraphSpec ParamSpec IndexProof ParamProof RenameSpec.
From Coq Require Import QArith.
Open Scope list_scope.
Open Scope nat_scope.

(** ** Results related by a relation *)
Definition rres {A B} (R : A -> B -> Prop) (x : res A) (y : res B) : Prop :=
  match x, y with Ok a, Ok b => R a b | Raise e, Raise e' => e' = e | _, _ => False end.
Lemma rres_bind : forall {A B C D} (R : A -> B -> Prop) (Q : C -> D -> Prop) x y k k',
  rres R x y -> (forall a b, R a b -> rres Q (k a) (k' b)) -> rres Q (bind x k) (bind y k').
Proof. intros A B C D R Q [a|e] [b|e'] k k' H K; cbn in *; try contradiction; auto. Qed.
Lemma rres_eq : forall {A B C} (Q : B -> C -> Prop) (x y : res A) k k',
  y = x -> (forall a, x = Ok a -> rres Q (k a) (k' a)) -> rres Q (bind x k) (bind y k').
Proof. intros A B C Q x y k k' -> K. destruct x as [a|e]; cbn; auto. Qed.
Lemma foldM_rel : forall {A A' S S'} (E : A -> A' -> Prop) (R : S -> S' -> Prop) (f : S -> A -> res S) (f' : S' -> A' -> res S') l l',
  Forall2 E l l' -> forall s s', R s s' -> (forall s s' x x', R s s' -> E x x' -> rres R (f s x) (f' s' x')) -> rres R (foldM f l s) (foldM f' l' s').
Proof.
  intros A A' S S' E R f f' l l' F. induction F as [|x x' l l' Hx F IH]; intros s s' H K; cbn [foldM]; [exact H|].
  apply (rres_bind R); [apply K; assumption|]. intros a b Hab. apply IH; assumption.
Qed.
Lemma Forall2_eq : forall {A} (l : list A), Forall2 eq l l.
Proof. intros A l. induction l; constructor; auto. Qed.
Lemma foldM_rel_same : forall {A S S'} (R : S -> S' -> Prop) (f : S -> A -> res S) (f' : S' -> A -> res S') l s s',
  R s s' -> (forall s s' x, R s s' -> rres R (f s x) (f' s' x)) -> rres R (foldM f l s) (foldM f' l s').
Proof. intros. apply (foldM_rel eq); [apply Forall2_eq|assumption|]. intros s1 s2 x x' H1 <-. auto. Qed.

Section Ren.
  Variable f : str -> str.
  Hypothesis Fi : forall a b, f a = f b -> a = b.
  Hypothesis F0 : f [] = [].

  Lemma f_eqb : forall a b, str_eqb (f a) (f b) = str_eqb a b.
  Proof.
    intros. destruct (str_eqb a b) eqn:E.
    - apply str_eqb_ok in E. subst. apply str_eqb_ok. reflexivity.
    - destruct (str_eqb (f a) (f b)) eqn:E'; [|reflexivity]. apply str_eqb_ok in E'. apply Fi in E'. subst.
      rewrite (proj2 (str_eqb_ok b b) eq_refl) in E. discriminate.
  Qed.

  (** ** Dictionaries with renamed keys *)
  Definition dr {V W} (h : V -> W) (d : list (str * V)) : list (str * W) := map (fun e => (f (fst e), h (snd e))) d.
  Lemma dget_dr : forall {V W} (h : V -> W) k d, dget str_eqb (f k) (dr h d) = option_map h (dget str_eqb k d).
  Proof. intros V W h k. induction d as [|[k' v] d IH]; [reflexivity|]. cbn [dr map dget fst snd]. rewrite f_eqb. destruct (str_eqb k k'); [reflexivity|exact IH]. Qed.
  Lemma dset_dr : forall {V W} (h : V -> W) k v d, dset str_eqb (f k) (h v) (dr h d) = dr h (dset str_eqb k v d).
  Proof.
    intros V W h k v. induction d as [|[k' w] d IH]; [reflexivity|]. cbn [dr map dset fst snd]. rewrite f_eqb. destruct (str_eqb k k'); [reflexivity|].
    cbn [map fst snd]. f_equal. exact IH.
  Qed.

  (** ** Tokens *)
  Definition mt (t : token) : token :=
    {| tk_pos := tk_pos t; tk_str := tk_str t;
       tk_data := match dget str_eqb k_sigil (tk_data t) with Some (JStr s) => dset str_eqb k_sigil (JStr (f s)) (tk_data t) | _ => tk_data t end |}.
  Lemma mt_user : forall t, user_entries (tk_data (mt t)) = user_entries (tk_data t).
  Proof.
    intros t. unfold mt, user_entries. cbn [tk_data]. destruct (dget str_eqb k_sigil (tk_data t)) as [[| | | | |]|]; try reflexivity.
    f_equal. unfold k_sigil. apply ddel_dset_same.
  Qed.
  Lemma mt_filtered : forall t, filtered_token_data (mt t) = filtered_token_data t.
  Proof.
    intros t. unfold filtered_token_data, mt, dgetE. cbn [tk_data].
    destruct (dget str_eqb k_sigil (tk_data t)) as [[| | | | |]|] eqn:E; try (rewrite ?E; reflexivity).
    rewrite (dget_set_same _ str_eqb_ok). cbn [bind]. rewrite ddel_dset_same. reflexivity.
  Qed.
  Lemma mt_stamp : forall sg ts pos, map mt (stamp sg pos ts) = stamp (f sg) pos ts.
  Proof.
    intros sg. induction ts as [|t ts IH]; intros pos; cbn [stamp map]; [reflexivity|]. f_equal; [|apply IH]. unfold mt. cbn [tk_pos tk_str tk_data]. f_equal.
    rewrite (dget_set_other _ str_eqb_ok) by discriminate. rewrite (dget_set_same _ str_eqb_ok).
    assert (C : forall {V} (a b : str) (x y z : V) d, a <> b -> dset str_eqb a z (dset str_eqb b y (dset str_eqb a x d)) = dset str_eqb b y (dset str_eqb a z d)).
    { clear. intros V a b x y z d N.
      assert (AA : str_eqb a a = true) by (apply str_eqb_ok; reflexivity).
      assert (BB : str_eqb b b = true) by (apply str_eqb_ok; reflexivity).
      assert (AB : str_eqb a b = false) by (destruct (str_eqb a b) eqn:E; [apply str_eqb_ok in E; contradiction|reflexivity]).
      assert (BA : str_eqb b a = false) by (destruct (str_eqb b a) eqn:E; [apply str_eqb_ok in E; congruence|reflexivity]).
      induction d as [|[k w] d IH]; cbn [dset].
      - rewrite BA. cbn [dset]. rewrite AA. reflexivity.
      - destruct (str_eqb a k) eqn:E1.
        + apply str_eqb_ok in E1. subst k. cbn [dset]. rewrite BA. cbn [dset]. rewrite AA. f_equal.
        + cbn [dset]. destruct (str_eqb b k) eqn:E2; cbn [dset].
          * rewrite E1. f_equal. clear IH. apply str_eqb_ok in E2. subst k.
            induction d as [|[k' w'] d IHd]; cbn [dset]; [rewrite AA; reflexivity|]. destruct (str_eqb a k') eqn:E3; cbn [dset]; rewrite ?AA, ?E3; [reflexivity|]. f_equal. exact IHd.
          * rewrite E1. f_equal. exact IH. }
    apply C. discriminate.
  Qed.
  Lemma mt_marker : forall idx pos sg, mt (marker idx pos sg) = marker idx pos (f sg).
  Proof. reflexivity. Qed.

  (** ** Graphs *)
  Definition vren (x : vertex) : vertex := {| v_label := v_label x; v_tokens := dr (map mt) (v_tokens x) |}.
  Record gren (g g' : graph) : Prop := {
    gr_verts : g_verts g' = dv vren (g_verts g);
    gr_edges : map fst (g_edges g') = map fst (g_edges g);
    gr_near : g_near g' = g_near g;
    gr_next : g_next g' = g_next g }.

  Lemma ends : forall {L} (p : nat * nat -> bool) (d d' : list (nat * nat * L)), map fst d' = map fst d ->
    map fst (filter (fun e => p (fst e)) d') = map fst (filter (fun e => p (fst e)) d).
  Proof.
    intros L p. induction d as [|[k v] d IH]; intros [|[k' v'] d'] E; try discriminate; [reflexivity|]. cbn [map fst] in E. injection E as -> E.
    cbn [filter fst]. destruct (p k); cbn [map fst]; [f_equal|]; auto.
  Qed.
  Lemma gr_out : forall g g' v, gren g g' -> map fst (out_edges g' v) = map fst (out_edges g v).
  Proof. intros g g' v G. unfold out_edges. apply (ends (fun p => fst p =? v)). apply (gr_edges _ _ G). Qed.
  Lemma gr_in : forall g g' v, gren g g' -> map fst (in_edges g' v) = map fst (in_edges g v).
  Proof. intros g g' v G. unfold in_edges. apply (ends (fun p => snd p =? v)). apply (gr_edges _ _ G). Qed.
  Lemma gr_vertices : forall g g', gren g g' -> vertices g' = vertices g.
  Proof. intros g g' G. unfold vertices. rewrite (gr_verts _ _ G). apply dv_keys. Qed.
  Lemma gr_get : forall g g' v, gren g g' -> rres (fun x x' => x' = vren x) (get_vertex g v) (get_vertex g' v).
  Proof. intros g g' v G. unfold get_vertex. rewrite (gr_verts _ _ G), dgetE_dv. destruct (dgetE Nat.eqb v (g_verts g)); reflexivity. Qed.

  Lemma dmem_fst : forall {L} (p : nat * nat) (d d' : list (nat * nat * L)), map fst d' = map fst d -> dmem edge_eqb p d' = dmem edge_eqb p d.
  Proof.
    intros L p. induction d as [|[k v] d IH]; intros [|[k' v'] d'] E; try discriminate; [reflexivity|]. cbn [map fst] in E. injection E as -> E.
    unfold dmem in *. cbn [dget]. destruct (edge_eqb p k); [reflexivity|]. apply IH. exact E.
  Qed.
  Lemma ddel_fst : forall {L} (p : nat * nat) (d d' : list (nat * nat * L)), map fst d' = map fst d -> map fst (ddel edge_eqb p d') = map fst (ddel edge_eqb p d).
  Proof.
    intros L p. induction d as [|[k v] d IH]; intros [|[k' v'] d'] E; try discriminate; [reflexivity|]. cbn [map fst] in E. injection E as -> E.
    cbn [ddel]. destruct (edge_eqb p k); [exact E|]. cbn [map fst]. f_equal. auto.
  Qed.
  Lemma dset_fst : forall {L} (p : nat * nat) (a b : L) (d d' : list (nat * nat * L)), map fst d' = map fst d -> map fst (dset edge_eqb p a d') = map fst (dset edge_eqb p b d).
  Proof.
    intros L p a b. induction d as [|[k v] d IH]; intros [|[k' v'] d'] E; try discriminate; [reflexivity|]. cbn [map fst] in E. injection E as -> E.
    cbn [dset]. destruct (edge_eqb p k); cbn [map fst]; f_equal; auto.
  Qed.
  Lemma connect_ren : forall g g' u v l l', gren g g' -> gren (connect g u v l) (connect g' u v l').
  Proof.
    intros g g' u v l l' [V E N X]. constructor; cbn [connect g_verts g_edges g_near g_next]; try assumption.
    pose proof (dmem_fst (u, v) _ _ E) as M. unfold dmem in M.
    destruct (dget edge_eqb (u, v) (g_edges g')), (dget edge_eqb (u, v) (g_edges g)); try discriminate M.
    - apply dset_fst. exact E.
    - rewrite !map_app, E. reflexivity.
  Qed.
  Lemma new_ren : forall t sg, new_vertex (mt t) (f sg) = vren (new_vertex t sg).
  Proof.
    intros. unfold new_vertex, vren. cbn [v_label v_tokens]. f_equal. destruct sg as [|c sg]; [rewrite F0; reflexivity|].
    destruct (f (c :: sg)) as [|c' s'] eqn:E; [rewrite <- F0 in E; apply Fi in E; discriminate|]. cbn [dr map fst snd]. rewrite E. reflexivity.
  Qed.
  Lemma add_token_ren : forall x sg t, vertex_add_token (vren x) (f sg) (mt t) = vren (vertex_add_token x sg t).
  Proof.
    intros. unfold vertex_add_token, vren. cbn [v_label v_tokens]. rewrite dget_dr. f_equal.
    destruct (dget str_eqb sg (v_tokens x)) as [l|]; cbn [option_map].
    - rewrite <- dset_dr, map_app. reflexivity.
    - rewrite <- dset_dr. reflexivity.
  Qed.
  Lemma update_ren : forall g g' v x, gren g g' -> gren (update_vertex g v x) (update_vertex g' v (vren x)).
  Proof. intros g g' v x [V E N X]. constructor; cbn [update_vertex g_verts g_edges g_near g_next]; try assumption. rewrite V. apply dset_dv. Qed.
  Lemma add_vertex_ren : forall g g' t sg, gren g g' -> gren (fst (add_vertex g t sg)) (fst (add_vertex g' (mt t) (f sg))) /\
    snd (add_vertex g' (mt t) (f sg)) = snd (add_vertex g t sg).
  Proof.
    intros g g' t sg [V E N X]. split; [|exact X]. constructor; cbn [add_vertex fst g_verts g_edges g_near g_next]; try congruence.
    rewrite V, X, dv_app, new_ren. reflexivity.
  Qed.
  Lemma graph_add_ren : forall g g' v sg t, gren g g' -> rres gren (graph_add_token g v sg t) (graph_add_token g' v (f sg) (mt t)).
  Proof.
    intros g g' v sg t G. unfold graph_add_token. apply (rres_bind (fun x x' => x' = vren x)); [apply gr_get; exact G|].
    intros x x' ->. rewrite add_token_ren. cbn. apply update_ren. exact G.
  Qed.
  Lemma merge_tokens_ren : forall ts g g' sg al last t2v, gren g g' ->
    rres (fun a b => gren (fst (fst a)) (fst (fst b)) /\ snd (fst b) = snd (fst a) /\ snd b = snd a)
      (merge_tokens g sg ts al last t2v) (merge_tokens g' (f sg) (map mt ts) al last t2v).
  Proof.
    induction ts as [|t ts IH]; intros g g' sg al last t2v G; cbn [map merge_tokens]; [cbn; auto|]. change (tk_pos (mt t)) with (tk_pos t).
    destruct (dget Nat.eqb (tk_pos t) al) as [v|].
    - apply (rres_bind gren); [apply graph_add_ren; exact G|]. intros a b Hab. apply IH. apply connect_ren. exact Hab.
    - destruct (add_vertex_ren g g' t sg G) as [H1 H2]. destruct (add_vertex g t sg) as [g1 v], (add_vertex g' (mt t) (f sg)) as [g1' v'].
      cbn [fst snd] in H1, H2. subst v'. apply IH. apply connect_ren. exact H1.
  Qed.
  Lemma merge_ren : forall ts g g' sg al, gren g g' ->
    rres (fun a b => gren (fst a) (fst b) /\ snd b = snd a) (merge g sg ts al) (merge g' (f sg) (map mt ts) al).
  Proof.
    intros ts g g' sg al G. unfold merge. eapply rres_bind; [apply merge_tokens_ren; exact G|].
    intros [[a l] d] [[b l'] d'] [H1 [H2 H3]]. cbn [fst snd] in *. subst. cbn. split; [apply connect_ren; exact H1|reflexivity].
  Qed.
  Lemma empty_ren : gren empty_graph empty_graph.
  Proof. constructor; reflexivity. Qed.

  Lemma remove_edge_ren : forall g g' u v, gren g g' -> rres gren (remove_edge g u v) (remove_edge g' u v).
  Proof.
    intros g g' u v G. destruct G as [V E N X]. unfold remove_edge. rewrite (dmem_fst _ _ _ E). destruct (dmem edge_eqb (u, v) (g_edges g)); [|reflexivity].
    cbn. constructor; cbn [g_verts g_edges g_near g_next]; try assumption. apply ddel_fst. exact E.
  Qed.
  Lemma remove_node_ren : forall g g' v, gren g g' -> rres gren (remove_node g v) (remove_node g' v).
  Proof.
    intros g g' v [V E N X]. unfold remove_node. rewrite V, dmem_dv. destruct (dmem Nat.eqb v (g_verts g)); [|reflexivity].
    cbn. constructor; cbn [g_verts g_edges g_near g_next]; try assumption; [apply ddel_dv|].
    apply (ends (fun p => negb (fst p =? v) && negb (snd p =? v))). exact E.
  Qed.
  Lemma Forall2_dr : forall {V W} (h : V -> W) d, Forall2 (fun e e' => e' = (f (fst e), h (snd e))) d (dr h d).
  Proof. intros. apply Forall2_map_r. reflexivity. Qed.
  Lemma join_vertices_ren : forall cc g g' cand v, gren g g' -> rres gren (join_vertices cc g cand v) (join_vertices cc g' cand v).
  Proof.
    intros cc g g' cand v G. unfold join_vertices. eapply rres_bind; [apply gr_get; exact G|]. intros x x' ->.
    eapply rres_bind; [apply gr_get; exact G|]. intros y y' ->. apply (rres_bind (fun x x' => x' = vren x)).
    - eapply foldM_rel; [apply (Forall2_dr (map mt))|reflexivity|]. intros s s' [sg ts] e' -> ->. cbn [fst snd]. rewrite aget_map.
      destruct (aget ts 0) as [t|e]; cbn; [|reflexivity]. apply add_token_ren.
    - intros a b ->. cbn. apply update_ren. exact G.
  Qed.
  Lemma Forall2_fst : forall {A B} (l l' : list (A * B)), map fst l' = map fst l -> Forall2 (fun e e' => fst e' = fst e) l l'.
  Proof. intros A B. induction l as [|x l IH]; intros [|x' l'] E; try discriminate; constructor; injection E; auto. Qed.
  Lemma absorb_ren : forall cc g g' cand v, gren g g' -> rres gren (absorb cc g cand v) (absorb cc g' cand v).
  Proof.
    intros cc g g' cand v G. unfold absorb. eapply rres_bind; [apply join_vertices_ren; exact G|]. clear g g' G. intros g g' G.
    apply (rres_bind gren).
    - eapply foldM_rel; [apply Forall2_fst; apply gr_out; exact G|exact G|]. intros s s' x x' Hs Hx. rewrite Hx.
      eapply rres_bind; [apply remove_edge_ren; exact Hs|]. intros a b Hab. cbn. apply connect_ren. exact Hab.
    - clear g g' G. intros g g' G. eapply rres_bind; [apply remove_edge_ren; exact G|]. intros a b Hab. apply remove_node_ren. exact Hab.
  Qed.
  Lemma fold_ends : forall {L} (h : list nat -> nat -> list nat) (l l' : list (nat * nat * L)) q, map fst l' = map fst l ->
    fold_left (fun q e => h q (snd (fst e))) l' q = fold_left (fun q e => h q (snd (fst e))) l q.
  Proof.
    intros L h. induction l as [|x l IH]; intros [|x' l'] q E; try discriminate; [reflexivity|]. injection E as E1 E2. cbn [fold_left]. rewrite E1. apply IH. exact E2.
  Qed.
  Lemma join_loop_ren : forall cc fuel g g' q p, gren g g' -> rres gren (join_loop cc fuel g q p) (join_loop cc fuel g' q p).
  Proof.
    intros cc. induction fuel as [|n IH]; intros g g' q p G; destruct q as [|v q]; cbn [join_loop]; try exact G; try reflexivity.
    replace (dmem Nat.eqb v (g_verts g')) with (dmem Nat.eqb v (g_verts g)) by (rewrite (gr_verts _ _ G); symmetry; apply dmem_dv).
    destruct (negb (dmem Nat.eqb v (g_verts g))); [reflexivity|].
    assert (O : rres gren (join_loop cc n g (fold_left (fun q e => if existsb (Nat.eqb (snd (fst e))) (v :: p) then q else snd (fst e) :: q) (out_edges g v) q) (v :: p))
                          (join_loop cc n g' (fold_left (fun q e => if existsb (Nat.eqb (snd (fst e))) (v :: p) then q else snd (fst e) :: q) (out_edges g' v) q) (v :: p))).
    { rewrite (fold_ends (fun q nb => if existsb (Nat.eqb nb) (v :: p) then q else nb :: q) _ _ q (gr_out _ _ v G)). apply IH. exact G. }
    pose proof (gr_out _ _ v G) as E. destruct (out_edges g v) as [|[[u cand] l] [|e2 oe]], (out_edges g' v) as [|[[u' cand'] l'] [|e2' oe']]; try discriminate E; try exact O.
    cbn [map fst] in E. injection E as E1 E2. subst u' cand'. rewrite <- (map_length fst (in_edges g' cand)), (gr_in _ _ cand G), map_length.
    destruct (negb (cand =? v_end) && (length (in_edges g cand) =? 1)); [|exact O].
    eapply rres_bind; [apply absorb_ren; exact G|]. intros a b Hab. apply IH. exact Hab.
  Qed.
  Lemma join_ren : forall cc g g', gren g g' -> rres gren (join cc g) (join cc g').
  Proof.
    intros cc g g' G. unfold join.
    replace (fold_left (fun q e => snd (fst e) :: q) (out_edges g' v_start) []) with (fold_left (fun q e => snd (fst e) :: q) (out_edges g v_start) [])
      by (symmetry; apply (fold_ends (fun q nb => nb :: q)); apply gr_out; exact G).
    replace (join_fuel g') with (join_fuel g).
    - apply join_loop_ren. exact G.
    - unfold join_fuel. rewrite (gr_verts _ _ G), dv_length. do 2 f_equal. f_equal. rewrite <- (map_length fst (g_edges g')), (gr_edges _ _ G), map_length. reflexivity.
  Qed.

  (** ** Ranking and near matching *)
  Section Topo.
    Variable topo : graph -> res (list vid).
    Hypothesis TS : by_shape topo.
    Lemma rank_step_ren : forall g g' r v, gren g g' -> rank_step g' r v = rank_step g r v.
    Proof.
      intros g g' r v G. unfold rank_step. f_equal. pose proof (gr_in _ _ v G) as E. revert E. generalize (in_edges g v) (in_edges g' v) 0. clear.
      induction l as [|x l IH]; intros [|x' l'] n E; try discriminate; [reflexivity|]. injection E as E1 E2. cbn [foldM]. rewrite E1.
      destruct (dgetE Nat.eqb (fst (fst x)) (by_vertex r)); cbn [bind]; [apply IH; exact E2|reflexivity].
    Qed.
    Lemma ranking_ren : forall g g', gren g g' -> ranking_of topo g' = ranking_of topo g.
    Proof.
      intros g g' G. unfold ranking_of. rewrite (TS g g' (gr_vertices _ _ G) (gr_edges _ _ G)). destruct (topo g) as [order|e]; cbn [bind]; [|reflexivity].
      rewrite (foldM_same (rank_step g) (rank_step g')) by (intros; apply rank_step_ren; exact G).
      destruct (foldM (rank_step g) order _) as [r|e]; cbn [bind]; [|reflexivity]. unfold in_near_edges. rewrite (gr_near _ _ G). reflexivity.
    Qed.
    Variable ratio : str -> str -> Q.
    Lemma best_ren : forall g g' src cands, gren g g' -> best_candidate ratio g' src cands = best_candidate ratio g src cands.
    Proof.
      intros g g' src cands G. unfold best_candidate. pose proof (gr_get g g' src G) as H.
      destruct (get_vertex g src) as [x|e], (get_vertex g' src) as [x'|e']; cbn in H; try contradiction; subst; cbn [bind]; [|reflexivity].
      f_equal. apply foldM_same. intros s c _. pose proof (gr_get g g' c G) as H.
      destruct (get_vertex g c) as [y|e], (get_vertex g' c) as [y'|e']; cbn in H; try contradiction; subst; reflexivity.
    Qed.
    Definition grren (a b : graph * ranking) : Prop := gren (fst a) (fst b) /\ snd b = snd a.
    Lemma near_edge_ren : forall st st' e e', grren st st' -> fst e' = fst e -> rres grren (near_edge_step topo ratio st e) (near_edge_step topo ratio st' e').
    Proof.
      intros [g r] [g' r'] [[src v] l] [p l'] [G E] Ee. cbn [fst snd] in *. subst r' p. unfold near_edge_step.
      destruct (dgetE Nat.eqb v (by_vertex r)) as [rv|e]; cbn [bind]; [|reflexivity].
      destruct (dgetE Nat.eqb src (by_vertex r)) as [rs|e]; cbn [bind]; [|reflexivity].
      destruct (Z.ltb 1 (Z.of_nat rv - Z.of_nat rs)); [|split; [exact G|reflexivity]].
      match goal with |- rres _ (bind (mapM ?h (out_edges g src)) _) _ => assert (EM : mapM h (out_edges g' src) = mapM h (out_edges g src)) end.
      { pose proof (gr_out _ _ src G) as E. revert E. generalize (out_edges g src) (out_edges g' src). clear.
        induction l as [|x l IH]; intros [|x' l'] E; try discriminate; [reflexivity|]. injection E as E1 E2. cbn [mapM]. rewrite E1, (IH _ E2). reflexivity. }
      rewrite EM. destruct (mapM _ (out_edges g src)) as [ds|e]; cbn [bind]; [|reflexivity]. destruct (existsb (Z.eqb 1) ds); [split; [exact G|reflexivity]|].
      destruct (mapM _ (seq rs (rv - rs))) as [ls|e]; cbn [bind]; [|reflexivity]. rewrite (best_ren g g') by exact G.
      destruct (best_candidate ratio g src _) as [[w q]|e]; cbn [bind]; [|reflexivity].
      assert (G' : gren (connect_near g w src q) (connect_near g' w src q)).
      { destruct G as [V E N X]. constructor; cbn [connect_near g_verts g_edges g_near g_next]; congruence. }
      rewrite (ranking_ren _ _ G'). destruct (ranking_of topo (connect_near g w src q)); cbn; [split; [exact G'|reflexivity]|reflexivity].
    Qed.
    Lemma near_ren : forall g g' r, gren g g' -> rres grren (perform_near_match topo ratio g r) (perform_near_match topo ratio g' r).
    Proof.
      intros g g' r G. unfold perform_near_match. rewrite (TS g g' (gr_vertices _ _ G) (gr_edges _ _ G)). destruct (topo g) as [order|e]; cbn [bind]; [|reflexivity].
      apply (rres_bind grren).
      - apply foldM_rel_same; [split; [exact G|reflexivity]|]. intros s s' v Hs. eapply foldM_rel; [apply Forall2_fst; apply gr_in; apply Hs|exact Hs|].
        intros. apply near_edge_ren; assumption.
      - intros [a ra] [b rb] [Hab Er]. cbn [fst snd] in *. rewrite (ranking_ren _ _ Hab). destruct (ranking_of topo a); cbn; [split; [exact Hab|reflexivity]|reflexivity].
    Qed.

    (** ** The aligner *)
    Definition iwren (w : iwitness) : iwitness := {| iw_sigil := f (iw_sigil w); iw_toks := map mt (iw_toks w) |}.
    Definition tiren (ti : tindex) : tindex :=
      {| ti_wits := map iwren (ti_wits ti); ti_ranges := dr (fun x => x) (ti_ranges ti); ti_array := map mt (ti_array ti); ti_sa := ti_sa ti;
         ti_lcp := ti_lcp ti; ti_blocks := ti_blocks ti; ti_instances := dr (fun x => x) (ti_instances ti) |}.
    Definition stren (s s' : astate) : Prop :=
      gren (a_graph s) (a_graph s') /\ a_t2v s' = a_t2v s /\ a_p2v s' = a_p2v s /\ a_varr s' = a_varr s.

    Variable ti : tindex.
    Variable filt : option props_filter.
    Lemma asked_same : forall fl, filt = Some fl -> forall a b, In a (ti_array ti) -> In b (ti_array ti) -> asked fl (mt a) (mt b) = asked fl a b.
    Proof. intros fl _ a b _ _. unfold asked. rewrite !mt_filtered. reflexivity. Qed.
    Lemma range_ren : forall sg, get_range_for_witness (tiren ti) (f sg) = get_range_for_witness ti sg.
    Proof. intros. unfold get_range_for_witness. cbn [tiren ti_ranges]. rewrite dget_dr. destruct (dget str_eqb sg (ti_ranges ti)); reflexivity. Qed.
    Lemma instances_ren : forall sg, block_instances_for_witness (tiren ti) (f sg) = block_instances_for_witness ti sg.
    Proof. intros. unfold block_instances_for_witness. cbn [tiren ti_instances]. rewrite dget_dr. destruct (dget str_eqb sg (ti_instances ti)); reflexivity. Qed.
    Lemma match_cube_ren : forall sg varr rank, match_cube (tiren ti) (f sg) varr rank filt = (y <- match_cube ti sg varr rank filt ;; Ok (cmap mt y)).
    Proof.
      intros. unfold match_cube, start_token_position. rewrite range_ren, instances_ren.
      destruct (r <- get_range_for_witness ti sg ;; aget r 0) as [start|e]; cbn [bind]; [|reflexivity].
      change (@nil (coord * (vid * token))) with (cmap mt []) at 1. apply foldM_nat. intros m [wst b].
      exact (cube_instance_map mt ti filt asked_same start varr rank m (wst, b)).
    Qed.
    Lemma first_step_ren : forall w, rres stren (first_step ti w) (first_step (tiren ti) (iwren w)).
    Proof.
      intros w. unfold first_step. cbn [iwren iw_sigil iw_toks]. eapply rres_bind; [apply merge_ren; apply empty_ren|].
      intros [a d] [b d'] [H1 H2]. cbn [fst snd] in *. subst d'. apply rres_eq; [apply range_ren|]. intros r _.
      apply rres_eq; [cbn [tiren ti_array]; rewrite map_length; reflexivity|]. intros va _. cbn. unfold stren. auto.
    Qed.
    Lemma next_step_ren : forall detect st st' w, stren st st' ->
      rres stren (next_step topo filt detect ti st w) (next_step topo filt detect (tiren ti) st' (iwren w)).
    Proof.
      intros detect st st' w [G [E1 [E2 E3]]]. unfold next_step. cbn [iwren iw_sigil iw_toks]. rewrite E1, E2, E3, (gr_vertices _ _ G).
      apply rres_eq; [apply ranking_ren; exact G|]. intros rk _. apply rres_eq; [reflexivity|]. intros ranks _.
      rewrite match_cube_ren. destruct (match_cube ti (iw_sigil w) (a_varr st) (by_vertex rk) filt) as [m|e]; cbn [bind]; [|reflexivity].
      rewrite map_length. unfold fill_table. rewrite (more_rows_map mt). rewrite (align_map mt) by reflexivity.
      apply rres_eq; [reflexivity|]. intros al _. eapply rres_bind; [apply merge_ren; exact G|].
      intros [a d] [b d'] [H1 H2]. cbn [fst snd] in *. subst d'. apply rres_eq; [apply range_ren|]. intros r _.
      apply rres_eq; [reflexivity|]. intros wp _. apply rres_eq; [reflexivity|]. intros va _. destruct detect; cbn; [reflexivity|]. unfold stren. auto.
    Qed.
    Lemma align_all_ren : forall detect, rres stren (align_all topo filt detect ti) (align_all topo filt detect (tiren ti)).
    Proof.
      intros. unfold align_all. cbn [tiren ti_wits]. destruct (ti_wits ti) as [|w ws]; cbn [map]; [reflexivity|].
      eapply rres_bind; [apply first_step_ren|]. intros a b Hab. eapply foldM_rel; [apply (Forall2_map_r (fun w w' => w' = iwren w) iwren); reflexivity|exact Hab|].
      intros s s' x x' Hs ->. apply next_step_ren. exact Hs.
    Qed.
  End Topo.

  (** ** The token index *)
  Definition wren (w : witness) : witness := {| w_sigil := f (w_sigil w); w_toks := w_toks w |}.
  Lemma prepare_loop_ren : forall c idx counter tap ranges arr out,
    prepare_loop (map wren c) idx counter tap (dr (fun x => x) ranges) (map mt arr) (map iwren out) =
      ('(r, a, o) <- prepare_loop c idx counter tap ranges arr out ;; Ok (dr (fun x => x) r, map mt a, map iwren o)).
  Proof.
    induction c as [|w c IH]; intros idx counter tap ranges arr out; cbn [map prepare_loop wren w_sigil w_toks]; [reflexivity|].
    destruct (range_of counter (counter + length (w_toks w))) as [r|e]; cbn [bind]; [|reflexivity]. rewrite <- IH. f_equal.
    - exact (dset_dr (fun x => x) (w_sigil w) r ranges).
    - rewrite !map_app, mt_stamp. reflexivity.
    - rewrite map_app. cbn [map]. unfold iwren at 3. cbn [iw_sigil iw_toks]. rewrite mt_stamp. reflexivity.
  Qed.
  Definition has_sigil (t : token) : Prop := exists s, dget str_eqb k_sigil (tk_data t) = Some (JStr s).
  Lemma token_sigil_ren : forall arr p, token_sigil (map mt arr) p = (s <- token_sigil arr p ;; Ok (f s)).
  Proof.
    intros. unfold token_sigil. rewrite aget_map. destruct (aget arr p) as [t|e]; cbn [bind]; [|reflexivity]. unfold mt, dgetE. cbn [tk_data].
    destruct (dget str_eqb k_sigil (tk_data t)) as [[| | | | |]|] eqn:E; rewrite ?E; cbn [bind]; try reflexivity.
    rewrite (dget_set_same _ str_eqb_ok). reflexivity.
  Qed.
  Lemma construct_instances_ren : forall arr sa bs, construct_instances (map mt arr) sa bs = (y <- construct_instances arr sa bs ;; Ok (dr (fun x => x) y)).
  Proof.
    intros. unfold construct_instances. change (@nil (str * list (nat * block))) with (dr (fun x : list (nat * block) => x) []) at 1. apply foldM_nat.
    intros m b. destruct (block_instances sa b) as [ps|e]; cbn [bind]; [|reflexivity]. apply foldM_nat. intros m' p. unfold add_instance. rewrite token_sigil_ren.
    destruct (token_sigil arr p) as [s|e]; cbn [bind]; [|reflexivity]. rewrite dget_dr. f_equal.
    replace (match option_map (fun x : list (nat * block) => x) (dget str_eqb s m') with Some l => l | None => [] end)
      with (match dget str_eqb s m' with Some l => l | None => [] end) by (destruct (dget str_eqb s m'); reflexivity).
    apply (dset_dr (fun x => x)).
  Qed.
  Lemma prepare_ren : forall c, prepare (map wren c) = (ti <- prepare c ;; Ok (tiren ti)).
  Proof.
    intros c. unfold prepare, prepare_array. pose proof (prepare_loop_ren c 0 0 0 [] [] []) as E. cbn [dr map] in E. rewrite E. clear E.
    destruct (prepare_loop c 0 0 0 [] [] []) as [[[r a] o]|e]; cbn [bind]; [|reflexivity].
    assert (EP : pop_last (map mt a) = (y <- pop_last a ;; Ok (map mt y))).
    { assert (ER : forall l, removelast (map mt l) = map mt (removelast l)).
      { induction l as [|x [|y l] IHl]; [reflexivity|reflexivity|]. cbn [map removelast] in *. f_equal. exact IHl. }
      destruct a as [|x a]; [reflexivity|]. unfold pop_last. cbn [map]. cbn [bind]. rewrite <- (ER (x :: a)). reflexivity. }
    rewrite EP. destruct (pop_last a) as [a'|e]; cbn [bind]; [|reflexivity].
    replace (map tk_str (map mt a')) with (map tk_str a') by (rewrite map_map; reflexivity).
    destruct (suffix_array (map tk_str a')) as [sa|e]; cbn [bind]; [|reflexivity].
    destruct (split_lcp (sa_LCP sa)) as [bs|e]; cbn [bind]; [|reflexivity]. rewrite construct_instances_ren.
    destruct (construct_instances a' (sa_SA sa) bs); reflexivity.
  Qed.

  (** ** The table *)
  Definition colren (c : column) : column := {| c_cells := dr (map mt) (c_cells c); c_variant := c_variant c |}.
  Definition rowren (r : row) : row := {| r_header := f (r_header r); r_cells := map (option_map (map mt)) (r_cells r) |}.
  Definition tren (t : table) : table := {| t_columns := map colren (t_columns t); t_rows := map rowren (t_rows t) |}.
  Lemma put_tokens_ren : forall ts cells, put_tokens (dr (map mt) cells) (dr (map mt) ts) = dr (map mt) (put_tokens cells ts).
  Proof.
    unfold put_tokens. induction ts as [|[sg t] ts IH]; intros cells; cbn [dr map fold_left fst snd]; [reflexivity|]. rewrite dset_dr. apply IH.
  Qed.
  Lemma column_step_ren : forall g g' n k col v, gren g g' -> column_step g' n k (option_map colren col) v = (y <- column_step g n k col v ;; Ok (option_map colren y)).
  Proof.
    intros g g' n k col v G. unfold column_step. destruct ((v =? v_start) || (v =? v_end)); [reflexivity|]. pose proof (gr_get g g' v G) as H.
    destruct (get_vertex g v) as [x|e], (get_vertex g' v) as [x'|e']; cbn in H; try contradiction; subst; cbn [bind]; [|reflexivity]. cbn [vren v_tokens].
    replace (match option_map colren col with Some c => c_cells c | None => [] end) with (dr (map mt) (match col with Some c => c_cells c | None => [] end))
      by (destruct col; reflexivity).
    rewrite put_tokens_ren. cbn [option_map]. unfold colren. cbn [c_cells c_variant]. unfold dr at 2. rewrite map_length. reflexivity.
  Qed.
  Lemma construct_columns_ren : forall g g' n br, gren g g' -> construct_columns g' n br = (y <- construct_columns g n br ;; Ok (map colren y)).
  Proof.
    intros g g' n br G. unfold construct_columns. refine (foldM_nat _ _ (map colren) br [] _). intros cols [k vs].
    unfold rank_column. change (@None column) with (option_map colren None) at 1.
    rewrite (foldM_nat (column_step g n (length vs)) _ (option_map colren)) by (intros; apply column_step_ren; exact G).
    destruct (foldM (column_step g n (length vs)) vs None) as [[c|]|e]; cbn [bind option_map]; try reflexivity.
    rewrite map_app. reflexivity.
  Qed.
  Lemma construct_table_ren : forall sigla g g' r, gren g g' -> construct_table (map f sigla) g' r = (y <- construct_table sigla g r ;; Ok (tren y)).
  Proof.
    intros sigla g g' r G. unfold construct_table. rewrite map_length, (construct_columns_ren g g') by exact G.
    destruct (construct_columns g (length sigla) (by_rank r)) as [cols|e]; cbn [bind]; [|reflexivity].
    unfold tren. cbn [t_columns t_rows]. do 2 f_equal. rewrite !map_map. apply map_ext. intros sg. unfold construct_row, rowren. cbn [r_header r_cells].
    f_equal. rewrite !map_map. apply map_ext. intros c. cbn [colren c_cells]. apply dget_dr.
  Qed.

  Lemma mt_tokens : forall l, same_tokens l (map mt l).
  Proof. intros l. unfold same_tokens. rewrite !map_map. split; [reflexivity|]. split; [reflexivity|]. apply map_ext. apply mt_user. Qed.
  Lemma tren_same : forall t, renamed_table t (tren t).
  Proof.
    intros t. split; cbn [tren t_columns t_rows].
    - rewrite map_map. reflexivity.
    - apply Forall2_map_r. intros r. cbn [rowren r_cells]. apply Forall2_map_r. intros [l|]; cbn; [apply mt_tokens|exact I].
  Qed.
  Lemma gren_same : forall c g g', gren g g' -> renamed_graph c (map wren c) g g'.
  Proof.
    intros c g g' [V E N X]. split; [exact E|]. split; [exact N|]. rewrite V. unfold dv. apply Forall2_map_r. intros [v x]. cbn [fst snd].
    split; [reflexivity|]. split; [reflexivity|]. cbn [vren v_tokens]. unfold dr. apply Forall2_map_r. intros [sg l]. cbn [fst snd].
    split; [|apply mt_tokens]. intros i w w' H1 H2 ->. rewrite nth_error_map, H1 in H2. injection H2 as <-. reflexivity.
  Qed.

  (** ** collate *)
  Section Collate.
    Variables (cc : cclass) (topo : graph -> res (list vid)) (ratio : str -> str -> Q).
    Hypothesis TS : by_shape topo.
    Lemma finish_ren : forall ti o, rres grren (finish cc topo ratio ti o) (finish cc topo ratio (tiren ti) o).
    Proof.
      intros ti o. unfold finish. eapply rres_bind; [apply align_all_ren; exact TS|]. intros st st' [G _].
      apply rres_eq; [apply ranking_ren; [exact TS|exact G]|]. intros rk _. apply (rres_bind grren).
      - destruct (o_near o); [|split; [exact G|reflexivity]]. destruct (o_segmentation o); [reflexivity|]. apply near_ren; [exact TS|exact G].
      - intros [a ra] [b rb] [Hab Er]. cbn [fst snd] in *. subst rb. destruct (o_segmentation o); [|split; [exact Hab|reflexivity]].
        eapply rres_bind; [apply join_ren; exact Hab|]. intros j j' Hj. apply rres_eq; [apply ranking_ren; [exact TS|exact Hj]|]. intros r _. split; [exact Hj|reflexivity].
    Qed.
    Lemma collate_graph_ren : forall c o, rres grren (collate_graph cc topo ratio c o) (collate_graph cc topo ratio (map wren c) o).
    Proof.
      intros c o. rewrite !collate_graph_finish. destruct (o_astar o); [reflexivity|]. rewrite prepare_ren. destruct (prepare c) as [ti|e]; cbn [bind]; [|reflexivity].
      apply finish_ren.
    Qed.
  End Collate.
End Ren.

(** ** Any renaming of finitely many names is one of all names *)
Definition swap (a b x : str) : str := if str_eqb x a then b else if str_eqb x b then a else x.
Lemma swap_cases : forall a b x, (x = a /\ swap a b x = b) \/ (x <> a /\ x = b /\ swap a b x = a) \/ (x <> a /\ x <> b /\ swap a b x = x).
Proof.
  intros. unfold swap. destruct (str_eqb x a) eqn:E1.
  - apply str_eqb_ok in E1. auto.
  - assert (x <> a) by (intros ->; rewrite (proj2 (str_eqb_ok a a) eq_refl) in E1; discriminate). right. destruct (str_eqb x b) eqn:E2.
    + apply str_eqb_ok in E2. auto.
    + assert (x <> b) by (intros ->; rewrite (proj2 (str_eqb_ok b b) eq_refl) in E2; discriminate). auto.
Qed.
Lemma swap_inj : forall a b x y, swap a b x = swap a b y -> x = y.
Proof.
  intros a b x y H. destruct (swap_cases a b x) as [[? E]|[[? [? E]]|[? [? E]]]], (swap_cases a b y) as [[? E']|[[? [? E']]|[? [? E']]]]; rewrite E, E' in H; congruence.
Qed.
Lemma extend_names : forall P : list (str * str),
  (forall a a' b b', In (a, a') P -> In (b, b') P -> (a' = b' <-> a = b)) ->
  exists f, (forall x y : str, f x = f y -> x = y) /\ forall a a', In (a, a') P -> f a = a'.
Proof.
  induction P as [|[s t] P IH]; intros H.
  - exists (fun x => x). split; [auto|]. intros a a' [].
  - destruct IH as [f [Fi Fp]]; [intros a a' b b' Ha Hb; apply H; right; assumption|].
    exists (fun x => swap (f s) t (f x)). split; [intros x y E; apply Fi; exact (swap_inj _ _ _ _ E)|].
    intros a a' [E|I].
    + injection E as <- <-. destruct (swap_cases (f s) t (f s)) as [[_ E]|[[N _]|[N _]]]; congruence.
    + rewrite (Fp _ _ I). pose proof (H a a' s t (or_intror I) (or_introl eq_refl)) as K.
      destruct (swap_cases (f s) t a') as [[E1 E2]|[[N [E1 E2]]|[N1 [N2 E2]]]]; rewrite E2; [| |reflexivity].
      * rewrite <- (Fp _ _ I) in E1. apply Fi in E1. symmetry. apply K. exact E1.
      * exfalso. apply N. apply K in E1. subst a. symmetry. apply (Fp _ _ I).
Qed.

Lemma renamed_map : forall c c', renamed c c' -> exists f, (forall x y : str, f x = f y -> x = y) /\ f [] = [] /\ c' = map (wren f) c.
Proof.
  intros c c' [F E].
  assert (T : forall i w w', nth_error c i = Some w -> nth_error c' i = Some w' -> w_toks w' = w_toks w /\ (w_sigil w' = [] <-> w_sigil w = [])).
  { clear E. induction F as [|x x' c c' Hx F IH]; intros [|i] w w' H1 H2; try discriminate; cbn in H1, H2; [congruence|eauto]. }
  assert (L : length c' = length c) by (clear -F; induction F; cbn; congruence).
  assert (P : forall a a', In (a, a') (combine (map w_sigil c) (map w_sigil c')) -> exists i w w', nth_error c i = Some w /\ nth_error c' i = Some w' /\ a = w_sigil w /\ a' = w_sigil w').
  { clear -F. induction F as [|x x' c c' Hx F IH]; intros a a' H; [destruct H|]. cbn [map combine] in H. destruct H as [H|H].
    - injection H as <- <-. exists 0, x, x'. auto.
    - destruct (IH _ _ H) as [i [w [w' K]]]. exists (S i), w, w'. exact K. }
  destruct (extend_names (([], []) :: combine (map w_sigil c) (map w_sigil c'))) as [f [Fi Fp]].
  { intros a a' b b' [Ha|Ha] [Hb|Hb].
    - injection Ha as <- <-. injection Hb as <- <-. tauto.
    - injection Ha as <- <-. destruct (P _ _ Hb) as [i [w [w' [H1 [H2 [-> ->]]]]]]. destruct (T _ _ _ H1 H2) as [_ K]. split; intros Q; symmetry; apply K; symmetry; exact Q.
    - injection Hb as <- <-. destruct (P _ _ Ha) as [i [w [w' [H1 [H2 [-> ->]]]]]]. apply (T _ _ _ H1 H2).
    - destruct (P _ _ Ha) as [i [w [w' [H1 [H2 [-> ->]]]]]]. destruct (P _ _ Hb) as [j [v [v' [H3 [H4 [-> ->]]]]]]. exact (E i j _ _ _ _ H1 H3 H2 H4). }
  exists f. split; [exact Fi|]. split; [apply Fp; left; reflexivity|].
  assert (M : forall a a', In (a, a') (combine (map w_sigil c) (map w_sigil c')) -> f a = a') by (intros; apply Fp; right; assumption).
  clear -F M. induction F as [|x x' c c' [Hx _] F IH]; [reflexivity|]. cbn [map combine] in *. f_equal.
  - unfold wren. rewrite (M (w_sigil x) (w_sigil x')) by (left; reflexivity). destruct x'; cbn in *; congruence.
  - apply IH. intros; apply M; right; assumption.
Qed.

Section Output.
  Variables (cc : cclass) (topo : graph -> res (list vid)) (ratio : str -> str -> Q).
  Hypothesis TS : by_shape topo.

  Theorem table_renamed : forall c c' o, renamed c c' -> o_output o = lit "table" ->
    match collate cc topo ratio c o with
    | Ok (OTable t) => exists t', collate cc topo ratio c' o = Ok (OTable t') /\ renamed_table t t' /\ map r_header (t_rows t') = map w_sigil c'
    | Ok _ => False
    | Raise e => collate cc topo ratio c' o = Raise e
    end.
  Proof.
    intros c c' o R T. destruct (renamed_map c c' R) as [f [Fi [F0 ->]]]. pose proof (collate_graph_ren f Fi F0 cc topo ratio TS c o) as H. unfold collate.
    destruct (collate_graph cc topo ratio c o) as [[g rk]|e], (collate_graph cc topo ratio (map (wren f) c) o) as [[g' rk']|e']; cbn in H; try contradiction; [|subst; reflexivity].
    destruct H as [G Er]. cbn [fst snd] in G, Er. subst rk'. cbn [bind]. unfold render. rewrite T.
    change (str_eqb (lit "table") (lit "svg")) with false. change (str_eqb (lit "table") (lit "svg_simple")) with false.
    change (str_eqb (lit "table") (lit "graph")) with false. change (str_eqb (lit "table") (lit "json")) with false.
    change (str_eqb (lit "table") (lit "html")) with false. change (str_eqb (lit "table") (lit "html2")) with false.
    change (str_eqb (lit "table") (lit "table")) with true. cbv iota.
    replace (map w_sigil (map (wren f) c)) with (map f (map w_sigil c)) by (rewrite !map_map; reflexivity).
    rewrite (construct_table_ren f Fi _ g g') by exact G.
    destruct (construct_table (map w_sigil c) g rk) as [t|e] eqn:ET; cbn [bind]; [|reflexivity].
    eexists. split; [reflexivity|]. split; [apply tren_same|]. unfold construct_table in ET.
    destruct (construct_columns g _ _) as [cols|e]; cbn [bind] in ET; [|discriminate]. injection ET as <-. cbn [tren t_rows]. rewrite !map_map. reflexivity.
  Qed.
  Theorem graph_renamed : forall c c' o, renamed c c' -> o_output o = lit "graph" ->
    match collate cc topo ratio c o with
    | Ok (OGraph g) => exists g', collate cc topo ratio c' o = Ok (OGraph g') /\ renamed_graph c c' g g'
    | Ok _ => False
    | Raise e => collate cc topo ratio c' o = Raise e
    end.
  Proof.
    intros c c' o R T. destruct (renamed_map c c' R) as [f [Fi [F0 ->]]]. pose proof (collate_graph_ren f Fi F0 cc topo ratio TS c o) as H. unfold collate.
    destruct (collate_graph cc topo ratio c o) as [[g rk]|e], (collate_graph cc topo ratio (map (wren f) c) o) as [[g' rk']|e']; cbn in H; try contradiction; [|subst; reflexivity].
    destruct H as [G Er]. cbn [fst snd] in G, Er. subst rk'. cbn [bind]. unfold render. rewrite T.
    change (str_eqb (lit "graph") (lit "svg")) with false. change (str_eqb (lit "graph") (lit "svg_simple")) with false.
    change (str_eqb (lit "graph") (lit "graph")) with true. cbv iota. eexists. split; [reflexivity|]. apply gren_same; assumption.
  Qed.
End Output.

Lemma kahn_by_shape : by_shape kahn.
Proof.
  intros g g' V E. unfold edge_pairs in E. unfold kahn, vertices in *.
  assert (L : length (g_verts g') = length (g_verts g)) by (rewrite <- (map_length fst), V, map_length; reflexivity).
  assert (I : forall v, length (in_edges g' v) = length (in_edges g v)).
  { intros v. rewrite <- (map_length fst (in_edges g' v)), <- (map_length fst (in_edges g v)). f_equal. exact (ends (fun p => snd p =? v) _ _ E). }
  assert (O : forall v, map fst (out_edges g' v) = map fst (out_edges g v)) by (intros v; exact (ends (fun p => fst p =? v) _ _ E)).
  assert (R : forall v st, fold_left kahn_relax (out_edges g' v) st = fold_left kahn_relax (out_edges g v) st).
  { intros v. generalize (O v). generalize (out_edges g v) (out_edges g' v). clear. induction l as [|x l IH]; intros [|x' l'] E st; try discriminate; [reflexivity|].
    injection E as E1 E2. cbn [fold_left]. rewrite (IH _ E2). f_equal. destruct st. unfold kahn_relax. rewrite E1. reflexivity. }
  assert (K : forall f ind z out, kahn_loop f g' ind z out = kahn_loop f g ind z out).
  { induction f as [|f IH]; intros ind z out; [reflexivity|]. cbn [kahn_loop]. destruct z as [|v z]; [reflexivity|]. rewrite R.
    destruct (fold_left kahn_relax (out_edges g v) (ind, z)). apply IH. }
  assert (ID : indegrees g' = indegrees g).
  { unfold indegrees, vertices. rewrite V. apply map_ext. intros v. rewrite I. reflexivity. }
  assert (Z : filter (fun v => length (in_edges g' v) =? 0) (map fst (g_verts g')) = filter (fun v => length (in_edges g v) =? 0) (map fst (g_verts g))).
  { rewrite V. apply filter_ext. intros v. rewrite I. reflexivity. }
  rewrite L, K, ID, Z. reflexivity.
Qed.
