(** What collate's graph, ranking and table look like, for all options. *)
From Verif Require Import Py TokenModel SuffixModel IndexModel GraphModel AlignModel TableModel NearModel ExportModel
  CollateModel Lib GraphSpec GraphProof MergeProof RankProof TableSpec TableProof IndexProof BlockText InstProof CubeProof
  AlignProof AlignerProof CollateProof JoinProof CollateSpec.
From Coq Require Import Permutation Relations QArith.
Open Scope list_scope.
Open Scope nat_scope.

(** ** Near matching only adds near edges *)
Lemma near_edge_same : forall topo ratio st e st', near_edge_step topo ratio st e = Ok st' ->
  without_near (fst st') = without_near (fst st).
Proof.
  intros topo ratio [g r] [[src v] lb] [g' r'] H. unfold near_edge_step in H.
  apply bind_ok in H as [rv [_ H]]. apply bind_ok in H as [rs [_ H]].
  destruct (1 <? Z.of_nat rv - Z.of_nat rs)%Z; [|injection H as <- <-; reflexivity].
  apply bind_ok in H as [ds [_ H]]. destruct (existsb (Z.eqb 1) ds); [injection H as <- <-; reflexivity|].
  apply bind_ok in H as [ls [_ H]]. apply bind_ok in H as [[w q] [_ H]]. apply bind_ok in H as [r1 [_ H]].
  injection H as <- <-. reflexivity.
Qed.

Lemma foldM_same : forall {A S T} (h : S -> T) (f : S -> A -> res S) l s s',
  (forall s a s', f s a = Ok s' -> h s' = h s) -> foldM f l s = Ok s' -> h s' = h s.
Proof.
  intros A S T h f l. induction l as [|a l IH]; intros s s' Hf H; [injection H as <-; reflexivity|].
  cbn [foldM] in H. apply bind_ok in H as [s1 [H1 H2]]. rewrite (IH _ _ Hf H2). apply (Hf _ _ _ H1).
Qed.

Lemma near_match_same : forall topo ratio g r g' r', perform_near_match topo ratio g r = Ok (g', r') ->
  without_near g' = without_near g /\ ranking_of topo g' = Ok r'.
Proof.
  intros topo ratio g r g' r' H. unfold perform_near_match in H. apply bind_ok in H as [order [_ H]].
  apply bind_ok in H as [[g1 r1] [H1 H]]. apply bind_ok in H as [r2 [H2 H]]. injection H as <- <-.
  split; [|assumption].
  apply (foldM_same (fun st => without_near (fst st))) in H1; [exact H1|].
  intros st v st' Hs. apply (foldM_same (fun st => without_near (fst st))) in Hs; [exact Hs|].
  intros s a s' He. apply (near_edge_same _ _ _ _ _ He).
Qed.

(** ** The vertices listed in a ranking come from the topological order *)
Definition ranks_in (l : list vid) (r : ranking) : Prop := forall k vs, In (k, vs) (by_rank r) -> incl vs l.

Lemma list_remove_In : forall x l l' y, list_remove x l = Ok l' -> In y l' -> In y l.
Proof.
  induction l as [|a l IH]; intros l' y H Hy; [discriminate|]. cbn [list_remove] in H. destruct (x =? a); [injection H as <-; right; assumption|].
  apply bind_ok in H as [r [H1 H2]]. injection H2 as <-. destruct Hy as [->|Hy]; [left; reflexivity|right; apply (IH r); assumption].
Qed.
Lemma list_remove_mem : forall x l l', list_remove x l = Ok l' -> In x l.
Proof.
  induction l as [|a l IH]; intros l' H; [discriminate|]. cbn [list_remove] in H. destruct (x =? a) eqn:E; [apply Nat.eqb_eq in E; left; auto|].
  apply bind_ok in H as [r [H1 _]]. right. apply (IH r H1).
Qed.

Lemma dset_In_gen : forall {K V} (eqb : K -> K -> bool) k (v : V) d k' v', In (k', v') (dset eqb k v d) -> v' = v \/ In (k', v') d.
Proof.
  intros K V eqb k v. induction d as [|[k1 v1] d IH]; intros k' v' H; cbn [dset] in H.
  - destruct H as [E|[]]. injection E as <- <-. auto.
  - destruct (eqb k k1).
    + destruct H as [E|H]; [injection E as <- <-; auto|]. right. right. assumption.
    + destruct H as [E|H]; [right; left; assumption|]. destruct (IH _ _ H) as [->|I]; auto. right. right. assumption.
Qed.

Lemma ranks_in_dset : forall (l : list vid) (d : list (nat * list vid)) k vs, (forall k vs, In (k, vs) d -> incl vs l) -> incl vs l ->
  forall k' vs', In (k', vs') (dset Nat.eqb k vs d) -> incl vs' l.
Proof.
  intros l d k vs H Hv k' vs' Hi. destruct (dset_In_gen _ _ _ _ _ _ Hi) as [E|Hi'].
  - subst vs'. assumption.
  - apply (H k' vs' Hi').
Qed.

Lemma ranking_in : forall topo g l r, topo g = Ok l -> ranking_of topo g = Ok r -> ranks_in l r.
Proof.
  intros topo g l r T H. unfold ranking_of in H. rewrite T in H. cbn [bind] in H. apply bind_ok in H as [r1 [H1 H2]].
  assert (I1 : ranks_in l r1).
  { assert (G : forall o s s', incl o l -> ranks_in l s -> foldM (rank_step g) o s = Ok s' -> ranks_in l s').
    { induction o as [|v o IH]; intros s s' Ho Hs E; [injection E as <-; assumption|]. cbn [foldM] in E.
      apply bind_ok in E as [s1 [E1 E2]]. apply (IH s1 s'); [intros x Hx; apply Ho; right; assumption| |assumption].
      unfold rank_step in E1. apply bind_ok in E1 as [rk [_ E1]]. injection E1 as <-. unfold ranks_in. cbn [by_rank].
      apply ranks_in_dset; [exact Hs|]. intros x Hx. apply in_app_or in Hx as [Hx|[<-|[]]].
      - destruct (dget Nat.eqb rk (by_rank s)) as [old|] eqn:D; [|contradiction].
        apply (dget_In _ nat_eqb_ok) in D. apply (Hs _ _ D). assumption.
      - apply Ho. left. reflexivity. }
    apply (G l _ _ (incl_refl l)) in H1; [assumption|]. intros k vs []. }
  clear H1. revert I1 H2. generalize r1 as s. generalize (rev l) as o.
  induction o as [|v o IH]; intros s Hs E; [injection E as <-; assumption|]. cbn [foldM] in E.
  apply bind_ok in E as [s1 [E1 E2]]. apply (IH s1); [|assumption]. clear E2.
  revert s s1 Hs E1. induction (in_near_edges g v) as [|[[a b] q] es IHe]; intros s s1 Hs E1; [injection E1 as <-; assumption|].
  cbn [foldM] in E1. apply bind_ok in E1 as [s2 [E1 E2]]. apply (IHe s2 s1); [|assumption]. clear E2.
  unfold near_step in E1. apply bind_ok in E1 as [ur [_ E1]]. apply bind_ok in E1 as [vr [_ E1]].
  apply bind_ok in E1 as [ol [D1 E1]]. apply bind_ok in E1 as [ol' [D2 E1]]. apply bind_ok in E1 as [nl [D3 E1]].
  injection E1 as <-. apply (dgetE_ok _) in D1. apply (dgetE_ok _) in D3. apply (dget_In _ nat_eqb_ok) in D1. apply (dget_In _ nat_eqb_ok) in D3.
  pose proof (Hs _ _ D1) as I1.
  assert (I2 : forall k vs, In (k, vs) (dset Nat.eqb vr ol' (by_rank s)) -> incl vs l).
  { apply ranks_in_dset; [exact Hs|]. intros x Hx. apply I1. apply (list_remove_In _ _ _ _ D2 Hx). }
  unfold ranks_in. cbn [by_rank]. apply ranks_in_dset; [exact I2|]. intros x Hx. apply in_app_or in Hx as [Hx|[<-|[]]].
  - apply (I2 _ _ D3 x Hx).
  - apply I1. apply (list_remove_mem _ _ _ D2).
Qed.

(** ** Facts about joined graphs *)
Lemma unfold_tokens : forall part s, (forall v ts, In (v, ts) s -> length ts = length (part v)) ->
  flat_map snd (unfold_path part s) = flat_map snd s.
Proof.
  intros part. induction s as [|[v ts] s IH]; intros H; [reflexivity|].
  unfold unfold_path. cbn [flat_map]. rewrite flat_map_app. f_equal; [|apply IH; intros; apply H; right; assumption].
  assert (L : length ts = length (part v)) by (apply H; left; reflexivity). cbn [snd].
  clear - L. revert ts L. induction (part v) as [|a l IH]; intros [|t ts] L; try discriminate; [reflexivity|].
  cbn. f_equal. apply IH. injection L; auto.
Qed.

Lemma joined_carries : forall cc g0 W0 g W part c, joined cc g0 W0 g W part -> Forall2 carries c W0 -> Forall2 carries c W.
Proof.
  intros cc g0 W0 g W part c JO F. pose proof (jo_paths _ _ _ _ _ _ JO) as P. clear JO. revert W P.
  induction F as [|w p0 c W0' [C1 C2] F IH]; intros W P; inversion P as [|? p ? W1 [E1 [E2 E3]] P']; subst; constructor.
  - split; [congruence|]. rewrite <- (unfold_tokens part (snd p) E3), <- E2. assumption.
  - apply IH. assumption.
Qed.

Lemma one_token_paths : forall done W, Forall2 path_for done W -> one_token W.
Proof.
  intros done W F p v ts Hp Hi. destruct (Forall2_In_r _ _ _ _ F Hp) as [iw [_ [_ [path [_ E]]]]].
  rewrite E in Hi. unfold steps in Hi. apply in_combine_r in Hi. apply in_map_iff in Hi as [t [<- _]]. reflexivity.
Qed.

(** The readings of a witness on a vertex are the labels of the original vertices. *)
Lemma joined_readings : forall cc filt ti done st W0 g W part, al_inv filt ti done st W0 -> joined cc (a_graph st) W0 g W part ->
  forall p v ts, In p W -> In (v, ts) (snd p) -> map tk_str ts = map (label_of (a_graph st)) (part v).
Proof.
  intros cc filt ti done st W0 g W part AL JO p v ts Hp Hi.
  destruct (Forall2_In_r _ _ _ _ (jo_paths _ _ _ _ _ _ JO) Hp) as [p0 [Hp0 [E1 [E2 E3]]]].
  pose proof (E3 v ts Hi) as L.
  assert (G : forall a t, In (a, [t]) (combine (part v) (map (fun t => [t]) ts)) -> label_of (a_graph st) a = tk_str t).
  { intros a t Ha. destruct (al_label _ _ _ _ _ AL p0 a t Hp0) as [vx [D1 D2]].
    - rewrite E2. unfold unfold_path. apply in_flat_map. exists (v, ts). auto.
    - unfold label_of. rewrite D1. assumption. }
  clear - L G. revert ts L G. induction (part v) as [|a l IH]; intros [|t ts] L G; try discriminate; [reflexivity|].
  cbn. f_equal; [symmetry; apply G; left; reflexivity|]. apply IH; [injection L; auto|]. intros. apply G. right. assumption.
Qed.

(** ** The graph and the ranking returned by collate *)
Record result_ok (cc : cclass) (topo : graph -> res (list vid)) (c : collation) (o : options) (g : graph) (r : ranking)
  (ti : tindex) (st : astate) (W0 W : list wpath) (part : vid -> list vid) : Prop := {
  rs_index : index_ok c ti;
  rs_text : index_text_ok ti;
  rs_aligner : al_inv (o_filter o) ti (ti_wits ti) st W0;
  rs_carries0 : Forall2 carries c W0;
  rs_carries : Forall2 carries c W;
  rs_joined : joined cc (a_graph st) W0 (without_near g) W part;
  rs_plain : o_segmentation o = false -> without_near g = a_graph st /\ W = W0 /\ part = (fun v => [v]);
  rs_maximal : o_segmentation o = true -> forall u w, In u (vertices g) -> ~ joinable g u w;
  rs_ranks : ranks_in (vertices g) r;
  rs_near : o_near o = false -> g_near g = [] /\ exists rk m l, rank_ok g rk m l /\ r = ranking_for rk m l
}.

Lemma graph_of_near : forall g W, graph_of g W -> without_near g = g.
Proof. intros g W GI. pose proof (gi_near _ _ GI) as E. destruct g as [a b n d]. cbn in *. subst n. reflexivity. Qed.

Lemma joined_refl : forall cc g W, graph_of g W -> one_token W -> joined cc g W g W (fun v => [v]).
Proof.
  intros cc g0 W0 GI ONE. constructor.
  - assumption.
  - assert (G : forall L, (forall p, In p L -> In p W0) -> Forall2 (fun p0 p : wpath => fst p0 = fst p /\
      snd p0 = unfold_path (fun v => [v]) (snd p) /\ forall v ts, In (v, ts) (snd p) -> length ts = length [v]) L L).
    { induction L as [|p L IH]; intros HL; constructor; [|apply IH; intros; apply HL; right; assumption].
      split; [reflexivity|]. assert (O : forall v ts, In (v, ts) (snd p) -> length ts = 1).
      { intros. apply (ONE p v ts); auto. apply HL. left. reflexivity. }
      split; [|exact O]. clear - O. induction (snd p) as [|[v ts] s IH]; [reflexivity|].
      unfold unfold_path. cbn [flat_map]. assert (L : length ts = 1) by (apply (O v); left; reflexivity).
      destruct ts as [|t [|? ?]]; try discriminate. cbn. f_equal. apply IH. intros. apply (O v0). right. assumption. }
    apply G. auto.
  - auto.
  - eauto.
  - intros v a b _ [].
  - intros u w _. reflexivity.
  - intros u0 w Hw E. exists u0. split; [apply (graph_edge_verts g0 W0 u0 w GI E)|reflexivity].
  - auto.
  - reflexivity.
Qed.

Lemma topo_near : forall topo g W, topo_ok topo -> graph_of (without_near g) W ->
  exists l, topo g = Ok l /\ Permutation l (vertices g).
Proof.
  intros topo g W TO GI. destruct (TO g) as [l [T1 [T2 _]]].
  - apply (gi_verts _ _ GI).
  - intros u v. apply (graph_edge_verts (without_near g) W u v GI).
  - apply (gi_edges_nodup _ _ GI).
  - apply (gi_acyclic _ _ GI).
  - eauto.
Qed.

Lemma ranks_in_of : forall topo g W r, topo_ok topo -> graph_of (without_near g) W -> ranking_of topo g = Ok r -> ranks_in (vertices g) r.
Proof.
  intros topo g W r TO GI H. destruct (topo_near topo g W TO GI) as [l [T1 T2]].
  intros k vs Hi x Hx. apply (Permutation_in x T2). apply (ranking_in topo g l r T1 H k vs Hi x Hx).
Qed.

Lemma stamped_tok : forall c pos iw t, In iw (stamped pos c) -> In t (iw_toks iw) ->
  exists w t0, In w c /\ In t0 (w_toks w) /\ tk_str t = t0_str t0.
Proof.
  induction c as [|w c IH]; intros pos iw t Hi Ht; [contradiction|]. cbn [stamped] in Hi. destruct Hi as [<-|Hi].
  - cbn [iw_toks] in Ht. destruct (Forall2_In_r _ _ _ _ (stamp_came_from (w_sigil w) (w_toks w) pos) Ht) as [t0 [H1 [H2 _]]].
    exists w, t0. split; [left; reflexivity|]. auto.
  - destruct (IH _ _ _ Hi Ht) as [w' [t0 [H1 H2]]]. exists w', t0. split; [right; assumption|assumption].
Qed.

Lemma stamped_tok_nth : forall c pos k iw t, nth_error (stamped pos c) k = Some iw -> In t (iw_toks iw) ->
  exists w t0, nth_error c k = Some w /\ In t0 (w_toks w) /\ tk_str t = t0_str t0.
Proof.
  induction c as [|w c IH]; intros pos k iw t Hi Ht; [destruct k; discriminate|]. cbn [stamped] in Hi. destruct k as [|k]; cbn [nth_error] in *.
  - injection Hi as <-.
    cbn [iw_toks] in Ht. destruct (Forall2_In_r _ _ _ _ (stamp_came_from (w_sigil w) (w_toks w) pos) Ht) as [t0 [H1 [H2 _]]].
    exists w, t0. auto.
  - apply (IH _ _ _ _ Hi Ht).
Qed.
Lemma tok_stamped_nth : forall c pos k w t0, nth_error c k = Some w -> In t0 (w_toks w) ->
  exists iw t, nth_error (stamped pos c) k = Some iw /\ In t (iw_toks iw) /\ tk_str t = t0_str t0.
Proof.
  induction c as [|w c IH]; intros pos k w' t0 Hi Ht; [destruct k; discriminate|]. cbn [stamped]. destruct k as [|k]; cbn [nth_error] in *.
  - injection Hi as ->. eexists. 
    destruct (Forall2_In_l _ _ _ _ (stamp_came_from (w_sigil w') (w_toks w') pos) Ht) as [t [H1 [H2 _]]].
    exists t. split; [reflexivity|]. auto.
  - apply (IH _ _ _ _ Hi Ht).
Qed.

Lemma no_clash_wits : forall c ti filt, index_ok c ti -> ~ marker_clash filt c ->
  forall k' iw' t j, nth_error (ti_wits ti) k' = Some iw' -> In t (iw_toks iw') -> S j < length (ti_wits ti) ->
    j < k' \/ (filt <> None /\ k' < j) -> tk_str t <> marker_str j.
Proof.
  intros c ti filt IX NM k iw t j Hi Hk L CL E. rewrite (wits_length c ti IX) in L. rewrite (ix_wits _ _ IX) in Hi.
  destruct (stamped_tok_nth c 0 k iw t Hi Hk) as [w [t0 [X1 [X2 X3]]]]. apply NM. exists k, w, t0, j. rewrite <- X3. auto.
Qed.

Lemma no_markers_clash : forall filt c, no_markers c -> ~ marker_clash filt c.
Proof. intros filt c H [i [w [t [j [A [B [C _]]]]]]]. apply (H w t j); auto. apply nth_error_In with i. assumption. Qed.

Section Result.
  Variables (cc : cclass) (topo : graph -> res (list vid)) (ratio : str -> str -> Q).
  Hypothesis TO : topo_ok topo.

  Theorem result_spec : forall c o g r, NoDup (map w_sigil c) -> ~ In [] (map w_sigil c) ->
    collate_graph cc topo ratio c o = Ok (g, r) ->
    exists ti st W0 W part, result_ok cc topo c o g r ti st W0 W part.
  Proof.
    intros c o g r ND NE H. unfold collate_graph in H. apply bind_ok in H as [[ti g1] [H1 H]].
    destruct (o_astar o); [discriminate|].
    apply bind_ok in H as [rk1 [H2 H]].
    destruct (aligner_spec _ _ _ _ _ _ TO ND NE H1) as [IX [TX [st [W0 [E [AL [NW CA]]]]]]]. subst g1.
    pose proof (al_graph _ _ _ _ _ AL) as GI. pose proof (one_token_paths _ _ (al_paths _ _ _ _ _ AL)) as ONE.
    pose proof (graph_of_near _ _ GI) as NN.
    destruct (ranking_spec topo (a_graph st) W0 TO GI) as [rk [m [l [_ [R1 R2]]]]]. rewrite R1 in H2. injection H2 as <-.
    apply bind_ok in H as [[g2 r2] [H3 H]].
    destruct (o_near o) eqn:Hn.
    - destruct (o_segmentation o) eqn:Hs; [discriminate|]. injection H as <- <-.
      destruct (near_match_same _ _ _ _ _ _ H3) as [S1 S2]. rewrite NN in S1.
      exists ti, st, W0, W0, (fun v => [v]). constructor; auto; try congruence.
      + rewrite S1. apply joined_refl; assumption.
      + apply (ranks_in_of topo g2 W0); auto. rewrite S1. assumption.
    - injection H3 as <- <-. destruct (o_segmentation o) eqn:Hs.
      + apply bind_ok in H as [g' [J1 H]]. apply bind_ok in H as [r' [J2 H]]. injection H as <- <-.
        destruct (join_spec cc (a_graph st) W0 GI ONE) as [g2 [W [part [J3 [J4 J5]]]]]. rewrite J1 in J3. injection J3 as <-.
        pose proof (jo_graph _ _ _ _ _ _ J4) as GI'. pose proof (graph_of_near _ _ GI') as NN'.
        destruct (ranking_spec topo g' W TO GI') as [rk' [m' [l' [_ [R1' R2']]]]]. rewrite R1' in J2. injection J2 as <-.
        exists ti, st, W0, W, part. constructor; auto; try congruence.
        * apply (joined_carries _ _ _ _ _ _ _ J4 CA).
        * apply (ranks_in_of topo g' W); auto. rewrite NN'. assumption.
        * intros _. split; [apply (gi_near _ _ GI')|]. eauto.
      + injection H as <- <-. exists ti, st, W0, W0, (fun v => [v]). constructor; auto; try congruence.
        * rewrite NN. apply joined_refl; assumption.
        * apply (ranks_in_of topo (a_graph st) W0); auto. rewrite NN. assumption.
        * intros _. split; [apply (gi_near _ _ GI)|]. eauto.
  Qed.

  (** Totality: no exception on well-formed input without near matching. *)
  Theorem collate_graph_total : forall c o, c <> [] -> NoDup (map w_sigil c) -> ~ In [] (map w_sigil c) ->
    Forall (fun w => w_toks w <> []) c ->
    ~ marker_clash (o_filter o) c ->
    o_astar o = false -> o_transp o = false -> o_near o = false ->
    exists g r, collate_graph cc topo ratio c o = Ok (g, r).
  Proof.
    intros c o NC ND NE FA NM Ha Ht Hn. destruct (prepare_total c NC ND FA) as [ti P].
    pose proof (prepare_index_ok c ti ND P) as IX. pose proof (prepare_text_ok c ti P) as TX.
    assert (WN : ti_wits ti <> []).
    { rewrite (ix_wits _ _ IX). destruct c; [congruence|discriminate]. }
    destruct (align_all_total c ti (o_filter o) IX TX NE topo TO) as [st A]; [|assumption|].
    { apply (no_clash_wits c ti _ IX NM). }
    assert (AC : aligner_collate topo (o_filter o) false c = Ok (ti, a_graph st)).
    { unfold aligner_collate. rewrite P. cbn [bind]. rewrite A. reflexivity. }
    destruct (aligner_spec _ _ _ _ _ _ TO ND NE AC) as [_ [_ [st' [W0 [E [AL [NW CA]]]]]]].
    pose proof (al_graph _ _ _ _ _ AL) as GI. rewrite E in GI.
    pose proof (one_token_paths _ _ (al_paths _ _ _ _ _ AL)) as ONE.
    destruct (ranking_spec topo (a_graph st) W0 TO GI) as [rk [m [l [_ [R1 R2]]]]].
    unfold collate_graph. rewrite Ha, Ht, AC. cbn [bind]. rewrite R1. cbn [bind]. rewrite Hn. cbn [bind].
    destruct (o_segmentation o); [|eauto].
    destruct (join_spec cc (a_graph st) W0 GI ONE) as [g2 [W [part [J3 [J4 J5]]]]]. rewrite J3. cbn [bind].
    destruct (ranking_spec topo g2 W TO (jo_graph _ _ _ _ _ _ J4)) as [rk' [m' [l' [_ [R1' R2']]]]]. rewrite R1'. cbn [bind]. eauto.
  Qed.

  (** A clash with a marker always makes the collation fail. *)
  Theorem clash_fails : forall c o x, NoDup (map w_sigil c) -> ~ In [] (map w_sigil c) -> marker_clash (o_filter o) c ->
    collate_graph cc topo ratio c o <> Ok x.
  Proof.
    intros c o x ND NE [i [w [t [j [A [B [C [L CL]]]]]]]] H. unfold collate_graph in H. apply bind_ok in H as [[ti g1] [H _]].
    destruct (o_astar o); [discriminate|]. unfold aligner_collate in H. apply bind_ok in H as [ti' [P H]].
    apply bind_ok in H as [st [H _]].
    assert (H' : align_all topo (o_filter o) false ti' = Ok st) by (destruct (o_transp o); [apply align_all_detect|]; assumption). clear H. rename H' into H.
    pose proof (prepare_index_ok c ti' ND P) as IX. pose proof (prepare_text_ok c ti' P) as TX.
    destruct (tok_stamped_nth c 0 i w t A B) as [iw [t' [X1 [X2 X3]]]]. rewrite <- (ix_wits _ _ IX) in X1.
    apply (align_no_clash c ti' (o_filter o) IX TX NE topo TO st i iw t' j H X1 X2); auto.
    - rewrite (wits_length c ti' IX). assumption.
    - rewrite X3. exact C.
  Qed.
End Result.

(** ** The table, for any ranking of the vertices *)
Lemma put_tokens_keys : forall L d k, In k (map fst (put_tokens d L)) <-> In k (map fst d) \/ In k (map fst L).
Proof.
  unfold put_tokens. induction L as [|[sg ts] L IH]; intros d k; cbn [fold_left map fst]; [simpl; tauto|].
  rewrite IH, (dset_In_key _ str_eqb_ok). simpl. intuition (subst; auto).
Qed.
Lemma put_tokens_In : forall L d k ts, In (k, ts) (put_tokens d L) -> In (k, ts) d \/ In (k, ts) L.
Proof.
  unfold put_tokens. induction L as [|[sg ts1] L IH]; intros d k ts H; cbn [fold_left] in H; [auto|].
  apply IH in H as [H|H]; [|right; right; assumption].
  assert (G : forall d, In (k, ts) (dset str_eqb sg ts1 d) -> In (k, ts) d \/ (sg, ts1) = (k, ts)).
  { clear. induction d as [|[k1 v1] d IH]; cbn [dset]; intros H.
    - destruct H as [H|[]]; auto.
    - destruct (str_eqb sg k1) eqn:E.
      + destruct H as [H|H]; [|left; right; assumption]. apply str_eqb_ok in E. subst k1. auto.
      + destruct H as [H|H]; [left; left; assumption|]. destruct (IH H); [left; right; assumption|auto]. }
  apply G in H as [H|H]; auto. right. left. assumption.
Qed.
Lemma put_tokens_NoDup : forall L d, NoDup (map fst d) -> NoDup (map fst (put_tokens d L)).
Proof.
  unfold put_tokens. induction L as [|[sg ts] L IH]; intros d N; [assumption|]. cbn [fold_left]. apply IH.
  apply (dset_NoDup _ str_eqb_ok). assumption.
Qed.

Section WeakTable.
  Variables (g : graph) (W : list wpath).
  Hypothesis GI : graph_of (without_near g) W.

  Definition wcol (nwit : nat) (vs : list vid) : column :=
    let cells := put_tokens [] (flat_map (tokens_on W) vs) in
    {| c_cells := cells; c_variant := (1 <? length vs) || negb (length cells =? nwit) |}.

  Lemma rank_column_weak : forall nwit vs, incl vs (vertices g) ->
    rank_column g nwit vs = Ok (if existsb inner vs then Some (wcol nwit vs) else None).
  Proof.
    intros nwit vs. unfold rank_column, wcol.
    assert (G : forall n l col, incl l (vertices g) ->
      foldM (column_step g nwit n) l col = Ok (if existsb inner l then
        let cells := put_tokens (match col with Some c => c_cells c | None => [] end) (flat_map (tokens_on W) l) in
        Some {| c_cells := cells; c_variant := (1 <? n) || negb (length cells =? nwit) |} else col)).
    { intros n. induction l as [|v l IH]; intros col I; [reflexivity|]. cbn [foldM existsb flat_map]. unfold column_step at 1.
      destruct (inner v) eqn:IV.
      - assert (E : (v =? v_start) || (v =? v_end) = false) by (unfold inner in IV; apply negb_true_iff in IV; assumption).
        rewrite E. assert (Hv : In v (vertices g)) by (apply I; left; reflexivity).
        destruct (dget_Some_key _ nat_eqb_ok v (g_verts g) Hv) as [vx D]. unfold get_vertex, dgetE. rewrite D. cbn [bind orb].
        pose proof (gi_tokens _ _ GI v vx D) as T. rewrite T. rewrite IH by (intros x Hx; apply I; right; assumption). cbn [c_cells].
        rewrite put_tokens_app. destruct (existsb inner l) eqn:EL; [reflexivity|].
        assert (Z : flat_map (tokens_on W) l = []).
        { clear - EL GI. induction l as [|x l IH]; [reflexivity|]. cbn [existsb] in EL. apply orb_false_iff in EL as [E1 E2].
          cbn [flat_map]. rewrite (tokens_on_ends _ _ x GI E1). apply IH. assumption. }
        rewrite Z. reflexivity.
      - assert (E : (v =? v_start) || (v =? v_end) = true) by (unfold inner in IV; apply negb_false_iff in IV; assumption).
        rewrite E. cbn [bind orb]. rewrite (tokens_on_ends _ _ v GI IV). cbn [app]. apply IH. intros x Hx. apply I. right. assumption. }
    intros I. rewrite G by assumption. reflexivity.
  Qed.

  Definition wtable (sigla : list str) (r : ranking) : table :=
    let cols := map (fun kv => wcol (length sigla) (snd kv)) (filter (fun kv => existsb inner (snd kv)) (by_rank r)) in
    {| t_columns := cols; t_rows := map (construct_row cols) sigla |}.

  Lemma table_weak : forall sigla r, ranks_in (vertices g) r -> construct_table sigla g r = Ok (wtable sigla r).
  Proof.
    intros sigla r RI. unfold construct_table, wtable, construct_columns.
    assert (G : forall (L : list (nat * list vid)) acc, (forall k vs, In (k, vs) L -> incl vs (vertices g)) ->
      foldM (fun cols '(_, vs) => oc <- rank_column g (length sigla) vs ;; Ok (match oc with Some c => cols ++ [c] | None => cols end)) L acc
      = Ok (acc ++ map (fun kv => wcol (length sigla) (snd kv)) (filter (fun kv => existsb inner (snd kv)) L))).
    { induction L as [|[k vs] L IH]; intros acc HL; cbn [foldM]; [rewrite app_nil_r; reflexivity|].
      rewrite rank_column_weak by (apply (HL k); left; reflexivity). cbn [bind].
      rewrite IH by (intros k' vs' H; apply (HL k' vs'); right; assumption). cbn [filter snd].
      destruct (existsb inner vs); [|reflexivity]. cbn [map snd]. rewrite <- app_assoc. reflexivity. }
    rewrite (G (by_rank r) []) by exact RI. reflexivity.
  Qed.

  Lemma wcells_In : forall vs sg ts, In (sg, ts) (put_tokens [] (flat_map (tokens_on W) vs)) ->
    exists v p, In v vs /\ In p W /\ fst p = sg /\ In (v, ts) (snd p).
  Proof.
    intros vs sg ts H. apply put_tokens_In in H as [[]|H]. apply in_flat_map in H as [v [Hv H]].
    apply tokens_on_In in H as [p [H1 [H2 H3]]]. apply (dget_In _ nat_eqb_ok) in H3. exists v, p. auto.
  Qed.

  Lemma column_In : forall sigla r i col, ranks_in (vertices g) r -> nth_error (t_columns (wtable sigla r)) i = Some col ->
    exists vs, incl vs (vertices g) /\ existsb inner vs = true /\ col = wcol (length sigla) vs.
  Proof.
    intros sigla r i col RI H. apply nth_error_In in H. cbn [t_columns wtable] in H. apply in_map_iff in H as [[k vs] [E H]].
    apply filter_In in H as [H1 H2]. cbn [snd] in *. exists vs. split; [apply (RI k); assumption|]. auto.
  Qed.

  Lemma row_cell : forall cols sg i col, nth_error cols i = Some col ->
    nth_error (r_cells (construct_row cols sg)) i = Some (dget str_eqb sg (c_cells col)).
  Proof. intros. cbn [construct_row r_cells]. rewrite (map_nth_error _ _ _ H). reflexivity. Qed.

  Theorem wtable_shape : forall r, ranks_in (vertices g) r ->
    let t := wtable (map fst W) r in
    map r_header (t_rows t) = map fst W /\
    (forall ro, In ro (t_rows t) -> length (r_cells ro) = length (t_columns t) /\
       forall ts, In (Some ts) (r_cells ro) -> ts <> []) /\
    (forall i, i < length (t_columns t) -> exists ro ts, In ro (t_rows t) /\ nth_error (r_cells ro) i = Some (Some ts)).
  Proof.
    intros r RI t. split; [|split].
    - unfold t, wtable. cbn [t_rows]. rewrite map_map. cbn [construct_row r_header]. apply map_id.
    - intros ro Hr. unfold t, wtable in Hr. cbn [t_rows] in Hr. apply in_map_iff in Hr as [sg [<- _]]. split.
      + cbn [construct_row r_cells]. rewrite map_length. reflexivity.
      + intros ts Hi. cbn [construct_row r_cells] in Hi. apply in_map_iff in Hi as [col [E Hc]].
        apply in_map_iff in Hc as [[k vs] [<- Hc]]. apply (dget_In _ str_eqb_ok) in E. unfold wcol in E. cbn [c_cells] in E.
        apply wcells_In in E as [v [p [H1 [H2 [H3 H4]]]]]. apply (gi_on _ _ GI p v ts H2 H4).
    - intros i Hi. destruct (nth_error (t_columns t) i) as [col|] eqn:N; [|apply nth_error_None in N; lia].
      destruct (column_In _ _ _ _ RI N) as [vs [V1 [V2 V3]]]. apply existsb_exists in V2 as [v [Hv IV]].
      assert (Hin : In v (vertices g)) by (apply V1; assumption).
      pose proof (tokens_on_nonempty _ _ v GI Hin IV) as TN.
      destruct (tokens_on W v) as [|[sg ts] L] eqn:TE; [congruence|].
      assert (T : In (sg, ts) (tokens_on W v)) by (rewrite TE; left; reflexivity).
      assert (K : In sg (map fst (put_tokens [] (flat_map (tokens_on W) vs)))).
      { apply put_tokens_keys. right. apply in_map_iff. exists (sg, ts). split; [reflexivity|]. apply in_flat_map. exists v. auto. }
      destruct (dget_Some_key _ str_eqb_ok sg _ K) as [ts' D].
      apply tokens_on_In in T as [p [T1 [T2 _]]].
      exists (construct_row (t_columns t) sg), ts'. split.
      + unfold t, wtable. cbn [t_rows t_columns]. apply in_map. apply in_map_iff. exists p. cbn [fst] in T2. auto.
      + rewrite (row_cell _ _ _ _ N), V3. unfold wcol. cbn [c_cells]. rewrite D. reflexivity.
  Qed.

  Theorem wtable_invariant : forall (reading : vid -> list str) r, ranks_in (vertices g) r ->
    (forall p v ts, In p W -> In (v, ts) (snd p) -> map tk_str ts = reading v) ->
    let t := wtable (map fst W) r in
    forall i col, nth_error (t_columns t) i = Some col -> c_variant col = false ->
    exists rd, forall ro, In ro (t_rows t) -> exists ts, nth_error (r_cells ro) i = Some (Some ts) /\ map tk_str ts = rd.
  Proof.
    intros reading r RI RD t i col N V. destruct (column_In _ _ _ _ RI N) as [vs [V1 [V2 V3]]].
    subst col. cbn [c_variant wcol] in V. apply orb_false_iff in V as [L1 L2].
    apply Nat.ltb_ge in L1. apply negb_false_iff, Nat.eqb_eq in L2.
    destruct vs as [|v [|? ?]]; [discriminate| |cbn in L1; lia]. exists (reading v). intros ro Hr.
    unfold t, wtable in Hr. cbn [t_rows] in Hr. apply in_map_iff in Hr as [sg [<- Hs]].
    set (L := put_tokens [] (flat_map (tokens_on W) [v])) in *.
    assert (NK : NoDup (map fst L)) by (apply put_tokens_NoDup; constructor).
    assert (IK : incl (map fst L) (map fst W)).
    { intros x Hx. apply in_map_iff in Hx as [[x' ts] [E Hx]]. cbn [fst] in E. subst x'. unfold L in Hx. apply wcells_In in Hx as [v' [p [_ [H2 [H3 _]]]]].
      apply in_map_iff. exists p. auto. }
    assert (KI : incl (map fst W) (map fst L)).
    { apply NoDup_length_incl; auto. rewrite !map_length in *. lia. }
    destruct (dget_Some_key _ str_eqb_ok sg L (KI sg Hs)) as [ts D].
    exists ts. split.
    - erewrite row_cell; [|exact N]. cbn [c_cells wcol]. fold L. rewrite D. reflexivity.
    - apply (dget_In _ str_eqb_ok) in D. unfold L in D. apply wcells_In in D as [v' [p [[<-|[]] [H2 [H3 H4]]]]]. apply (RD p v ts H2 H4).
  Qed.
End WeakTable.

(** ** The table returned by collate *)
Lemma carries_sigla : forall c W, Forall2 carries c W -> map fst W = map w_sigil c.
Proof. intros c W F. induction F as [|w p c W [H _] F IH]; [reflexivity|]. cbn [map]. rewrite H, IH. reflexivity. Qed.

Lemma str_eqb_refl : forall s, str_eqb s s = true.
Proof. intros. apply (eqb_refl' _ str_eqb_ok). Qed.

Definition is_table (x : output) (t : table) : Prop :=
  match x with OTable t' => t' = t | _ => False end.

Section TableResult.
  Variables (cc : cclass) (topo : graph -> res (list vid)) (ratio : str -> str -> Q).
  Hypothesis TO : topo_ok topo.

  Lemma collate_table_inv : forall c o t, collate cc topo ratio c o = Ok (OTable t) ->
    exists g r, collate_graph cc topo ratio c o = Ok (g, r) /\ construct_table (map w_sigil c) g r = Ok t.
  Proof.
    intros c o t H. unfold collate in H. apply bind_ok in H as [[g r] [H1 H]]. exists g, r. split; [assumption|].
    unfold render in H.
    destruct (str_eqb (o_output o) (lit "svg")); [discriminate|].
    destruct (str_eqb (o_output o) (lit "svg_simple")); [discriminate|].
    destruct (str_eqb (o_output o) (lit "graph")); [discriminate|].
    apply bind_ok in H as [t' [H2 H]]. rewrite H2. f_equal.
    destruct (str_eqb (o_output o) (lit "json")); [destruct (o_vertical o); discriminate|].
    destruct (str_eqb (o_output o) (lit "html")); [discriminate|].
    destruct (str_eqb (o_output o) (lit "html2")); [discriminate|].
    destruct (str_eqb (o_output o) (lit "table")); [injection H as <-; reflexivity|].
    destruct (str_eqb (o_output o) (lit "xml")); [apply bind_ok in H as [? [_ H]]; discriminate|].
    destruct (str_eqb (o_output o) (lit "tei")); [apply bind_ok in H as [? [_ H]]; discriminate|].
    destruct (str_eqb (o_output o) (lit "csv")); [apply bind_ok in H as [? [_ H]]; discriminate|].
    destruct (str_eqb (o_output o) (lit "tsv")); [apply bind_ok in H as [? [_ H]]; discriminate|].
    discriminate.
  Qed.

  Lemma collate_graph_inv : forall c o g, collate cc topo ratio c o = Ok (OGraph g) ->
    exists r, collate_graph cc topo ratio c o = Ok (g, r).
  Proof.
    intros c o t H. unfold collate in H. apply bind_ok in H as [[g r] [H1 H]]. exists r. 
    unfold render in H.
    destruct (str_eqb (o_output o) (lit "svg")); [discriminate|].
    destruct (str_eqb (o_output o) (lit "svg_simple")); [discriminate|].
    destruct (str_eqb (o_output o) (lit "graph")); [injection H as <-; assumption|].
    apply bind_ok in H as [t' [H2 H]].
    destruct (str_eqb (o_output o) (lit "json")); [destruct (o_vertical o); discriminate|].
    destruct (str_eqb (o_output o) (lit "html")); [discriminate|].
    destruct (str_eqb (o_output o) (lit "html2")); [discriminate|].
    destruct (str_eqb (o_output o) (lit "table")); [discriminate|].
    destruct (str_eqb (o_output o) (lit "xml")); [apply bind_ok in H as [? [_ H]]; discriminate|].
    destruct (str_eqb (o_output o) (lit "tei")); [apply bind_ok in H as [? [_ H]]; discriminate|].
    destruct (str_eqb (o_output o) (lit "csv")); [apply bind_ok in H as [? [_ H]]; discriminate|].
    destruct (str_eqb (o_output o) (lit "tsv")); [apply bind_ok in H as [? [_ H]]; discriminate|].
    discriminate.
  Qed.

  (** The table exists whenever the graph does. *)
  Lemma table_exists : forall c o g r, NoDup (map w_sigil c) -> ~ In [] (map w_sigil c) ->
    collate_graph cc topo ratio c o = Ok (g, r) -> exists W, construct_table (map w_sigil c) g r = Ok (wtable W (map w_sigil c) r).
  Proof.
    intros c o g r ND NE H. destruct (result_spec cc topo ratio TO c o g r ND NE H) as [ti [st [W0 [W [part RS]]]]].
    exists W. apply table_weak; [apply (jo_graph _ _ _ _ _ _ (rs_joined _ _ _ _ _ _ _ _ _ _ _ RS))|apply (rs_ranks _ _ _ _ _ _ _ _ _ _ _ RS)].
  Qed.

  (** Rows reproduce the witnesses. *)
  Theorem rows_lossless : forall c o t, NoDup (map w_sigil c) -> ~ In [] (map w_sigil c) -> o_near o = false ->
    collate cc topo ratio c o = Ok (OTable t) ->
    Forall2 (fun w ro => r_header ro = w_sigil w /\ Forall2 (came_from (w_sigil w)) (w_toks w) (row_tokens ro)) c (t_rows t).
  Proof.
    intros c o t ND NE Hn H. destruct (collate_table_inv c o t H) as [g [r [H1 H2]]].
    destruct (result_spec cc topo ratio TO c o g r ND NE H1) as [ti [st [W0 [W [part RS]]]]].
    destruct (rs_near _ _ _ _ _ _ _ _ _ _ _ RS Hn) as [N0 [rk [m [l [RO E]]]]]. subst r.
    pose proof (jo_graph _ _ _ _ _ _ (rs_joined _ _ _ _ _ _ _ _ _ _ _ RS)) as GI.
    assert (NN : without_near g = g) by (destruct g; cbn in N0; subst; reflexivity). rewrite NN in GI.
    rewrite (table_spec g W rk m l GI RO) in H2. injection H2 as <-.
    pose proof (rs_carries _ _ _ _ _ _ _ _ _ _ _ RS) as F.
    unfold the_table at 1. cbn [t_rows].
    assert (G : forall L P, Forall2 carries L P -> (forall p, In p P -> In p W) ->
      Forall2 (fun w ro => r_header ro = w_sigil w /\ Forall2 (came_from (w_sigil w)) (w_toks w) (row_tokens ro)) L
        (map (construct_row (t_columns (the_table W rk m l (map w_sigil c)))) (map w_sigil L))).
    { intros L P FF. induction FF as [|w p L P [C1 C2] FF IH]; intros I; cbn [map]; constructor.
      - split; [reflexivity|]. rewrite <- C1.
        pose proof (row_of g W rk m l GI RO (map w_sigil c) p (I p (or_introl eq_refl))) as X. rewrite X, C1. exact C2.
      - apply IH. intros q Hq. apply I. right. assumption. }
    apply (G c W F). auto.
  Qed.

  Theorem table_shape : forall c o t, NoDup (map w_sigil c) -> ~ In [] (map w_sigil c) ->
    collate cc topo ratio c o = Ok (OTable t) ->
    map r_header (t_rows t) = map w_sigil c /\
    (forall ro, In ro (t_rows t) -> length (r_cells ro) = length (t_columns t) /\
       forall ts, In (Some ts) (r_cells ro) -> ts <> []) /\
    (forall i, i < length (t_columns t) -> exists ro ts, In ro (t_rows t) /\ nth_error (r_cells ro) i = Some (Some ts)).
  Proof.
    intros c o t ND NE H. destruct (collate_table_inv c o t H) as [g [r [H1 H2]]].
    destruct (result_spec cc topo ratio TO c o g r ND NE H1) as [ti [st [W0 [W [part RS]]]]].
    pose proof (jo_graph _ _ _ _ _ _ (rs_joined _ _ _ _ _ _ _ _ _ _ _ RS)) as GI.
    pose proof (rs_ranks _ _ _ _ _ _ _ _ _ _ _ RS) as RI.
    rewrite (table_weak g W GI _ r RI) in H2. injection H2 as <-.
    rewrite <- (carries_sigla c W (rs_carries _ _ _ _ _ _ _ _ _ _ _ RS)). apply (wtable_shape g W GI r RI).
  Qed.

  Theorem invariant_columns : forall c o t, NoDup (map w_sigil c) -> ~ In [] (map w_sigil c) ->
    collate cc topo ratio c o = Ok (OTable t) ->
    forall i col, nth_error (t_columns t) i = Some col -> c_variant col = false ->
    exists rd, forall ro, In ro (t_rows t) -> exists ts, nth_error (r_cells ro) i = Some (Some ts) /\ map tk_str ts = rd.
  Proof.
    intros c o t ND NE H. destruct (collate_table_inv c o t H) as [g [r [H1 H2]]].
    destruct (result_spec cc topo ratio TO c o g r ND NE H1) as [ti [st [W0 [W [part RS]]]]].
    pose proof (jo_graph _ _ _ _ _ _ (rs_joined _ _ _ _ _ _ _ _ _ _ _ RS)) as GI.
    pose proof (rs_ranks _ _ _ _ _ _ _ _ _ _ _ RS) as RI.
    rewrite (table_weak g W GI _ r RI) in H2. injection H2 as <-.
    rewrite <- (carries_sigla c W (rs_carries _ _ _ _ _ _ _ _ _ _ _ RS)).
    apply (wtable_invariant g W (fun v => map (label_of (a_graph st)) (part v)) r RI).
    apply (joined_readings cc _ _ _ _ _ _ _ _ (rs_aligner _ _ _ _ _ _ _ _ _ _ _ RS) (rs_joined _ _ _ _ _ _ _ _ _ _ _ RS)).
  Qed.
End TableResult.
