(** Filters that accept everything or nothing (C91). *)
From Verif Require Import Py Lib TokenModel SuffixModel IndexModel GraphModel AlignModel TableModel NearModel ExportModel
  CollateModel GraphSpec CollateSpec TableSpec GraphProof CubeProof MergeProof AlignerProof RankProof TableProof CollateProof IndexProof StageProof
  ResultProof FactsProof IdentProof SizeSpec SizeProof ShapeProof StrangerProof Props_size.
From Coq Require Import QArith.
Open Scope list_scope.
Open Scope nat_scope.

(** ** A filter that accepts everything *)
Section Accept.
  Variable f : props_filter.
  Hypothesis YES : forall a b, f a b = true.

  Lemma foldM_less : forall {A B} (F G : B -> A -> res B) (l : list A) b x, (forall b a y, F b a = Ok y -> G b a = Ok y) -> foldM F l b = Ok x -> foldM G l b = Ok x.
  Proof.
    induction l as [|a l IH]; intros b x H E; [exact E|]. cbn [foldM] in *. apply bind_ok in E as [y [E1 E2]]. rewrite (H _ _ _ E1). cbn [bind]. apply IH; assumption.
  Qed.

  Lemma step_less : forall ti start varr rank wst gst m i x, cube_step ti start varr rank (Some f) wst gst m i = Ok x -> cube_step ti start varr rank None wst gst m i = Ok x.
  Proof.
    intros ti start varr rank wst gst m i x H. unfold cube_step in *. apply bind_ok in H as [ov [H1 H]]. rewrite H1. cbn [bind]. destruct ov as [v|]; [|discriminate H].
    apply bind_ok in H as [rk [H2 H]]. rewrite H2. cbn [bind]. apply bind_ok in H as [tok [H3 H]]. rewrite H3. cbn [bind].
    apply bind_ok in H as [ok [H4 H]]. apply bind_ok in H4 as [other [_ H4]]. apply bind_ok in H4 as [d1 [_ H4]]. apply bind_ok in H4 as [d2 [_ H4]].
    rewrite YES in H4. injection H4 as <-. exact H.
  Qed.

  Lemma cube_less : forall ti sg varr rank m, match_cube ti sg varr rank (Some f) = Ok m -> match_cube ti sg varr rank None = Ok m.
  Proof.
    intros ti sg varr rank m H. unfold match_cube in *. apply bind_ok in H as [start [H1 H]]. rewrite H1. cbn [bind].
    eapply foldM_less; [|exact H]. clear H H1. intros b [wst bl] y H. unfold cube_instance in *. apply bind_ok in H as [all [H1 H]]. rewrite H1. cbn [bind].
    eapply foldM_less; [|exact H]. intros b0 a y0 H0. eapply foldM_less; [|exact H0]. intros b1 a1 y1. apply step_less.
  Qed.

  Variable topo : graph -> res (list vid).
  Lemma collate_less : forall detect c x, aligner_collate topo (Some f) detect c = Ok x -> aligner_collate topo None detect c = Ok x.
  Proof.
    intros detect c x H. unfold aligner_collate in *. apply bind_ok in H as [ti [H1 H]]. rewrite H1. cbn [bind]. apply bind_ok in H as [st [H2 H]].
    assert (E : align_all topo None detect ti = Ok st); [|rewrite E; exact H]. clear H H1. unfold align_all in *. destruct (ti_wits ti) as [|w ws]; [exact H2|].
    apply bind_ok in H2 as [st0 [H1 H2]]. rewrite H1. cbn [bind]. eapply foldM_less; [|exact H2]. clear st0 st w ws H1 H2. intros st w st' H. unfold next_step in *.
    apply bind_ok in H as [rk [H1 H]]. rewrite H1. cbn [bind]. apply bind_ok in H as [ranks [H2 H]]. rewrite H2. cbn [bind].
    apply bind_ok in H as [m [H3 H]]. rewrite (cube_less _ _ _ _ _ H3). cbn [bind]. exact H.
  Qed.
End Accept.

(** ** A filter that accepts nothing *)
Section Reject.
  Variables (cc : cclass) (topo : graph -> res (list vid)) (ratio : str -> str -> Q).
  Hypothesis TO : topo_ok topo.

  Lemma split_pair : forall {A} (l : list A) i j a b, i < j -> nth_error l i = Some a -> nth_error l j = Some b ->
    exists l1 l2, l = l1 ++ b :: l2 /\ In a l1.
  Proof.
    intros A l i j a b L Hi Hj. destruct (nth_error_split l j Hj) as [l1 [l2 [-> Ll]]]. exists l1, l2. split; [reflexivity|].
    rewrite nth_error_app1 in Hi by lia. apply nth_error_In in Hi. assumption.
  Qed.

  (** The paths the aligner makes share no vertex. *)
  Lemma rejected_apart : forall f ti st W, (forall a b, f a b = false) -> al_inv (Some f) ti (ti_wits ti) st W ->
    forall i j p q v, i < j -> nth_error W i = Some p -> nth_error W j = Some q -> In v (map fst (snd p)) -> In v (map fst (snd q)) -> False.
  Proof.
    intros f ti st W NO AL i j p q v L Hi Hj Vp Vq. destruct (split_pair W i j p q L Hi Hj) as [W1 [W2 [E I]]].
    apply in_map_iff in Vq as [[v' ts] [Ev Vq]]. cbn [fst] in Ev. subst v'.
    assert (Q : In q W) by (apply nth_error_In with j; assumption).
    pose proof (one_token_paths _ _ (al_paths _ _ _ _ _ AL)) as ONE. pose proof (ONE q v ts Q Vq) as LT. destruct ts as [|t [|? ?]]; try discriminate LT. clear LT.
    destruct (al_matched _ _ _ _ _ AL W1 q W2 v t E Vq) as [M|M]; [apply (M p I Vp)|].
    destruct M as [p1 [t1 [_ [_ [_ [_ M4]]]]]]. cbn [filter_passed] in M4. destruct M4 as [n [tok [oth [d1 [d2 [_ [_ [_ [_ [_ [_ [_ [_ F]]]]]]]]]]]]].
    rewrite NO in F. discriminate F.
  Qed.

  Theorem reject_all_apart : forall c o f, good_sigla c -> o_near o = false -> o_filter o = Some f -> (forall a b, f a b = false) -> all_apart cc topo ratio c o.
  Proof.
    intros c o f [ND NE] On Hf NO g r W CG GI CA _ p q v Hp Hq Vp Vq.
    destruct (result_spec cc topo ratio TO c o g r ND NE CG) as [ti [st [W0 [W2 [part RS]]]]].
    pose proof (rs_joined _ _ _ _ _ _ _ _ _ _ _ RS) as JO. pose proof (rs_aligner _ _ _ _ _ _ _ _ _ _ _ RS) as AL. rewrite Hf in AL.
    pose proof (jo_graph _ _ _ _ _ _ JO) as GI2. rewrite (graph_of_near _ _ GI) in JO, GI2. pose proof (rs_carries _ _ _ _ _ _ _ _ _ _ _ RS) as CA2.
    (* the paths of the result and those of the aligner *)
    assert (SAME : forall p v, In p W -> In v (map fst (snd p)) -> exists p2, In p2 W2 /\ fst p2 = fst p /\ In v (map fst (snd p2))).
    { clear p q v Hp Hq Vp Vq. intros p v Hp Vp. destruct (Forall2_In_r _ _ _ _ CA Hp) as [w [Hw [E _]]]. destruct (Forall2_In_l _ _ _ _ CA2 Hw) as [p2 [Hp2 [E2 _]]].
      exists p2. split; [assumption|]. split; [congruence|]. apply in_map_iff in Vp as [[v' ts] [Ev Vp]]. cbn [fst] in Ev. subst v'.
      destruct (gi_on _ _ GI p v ts Hp Vp) as [Hv _]. assert (exists vx, dget Nat.eqb v (g_verts g) = Some vx) as [vx D].
      { destruct (dget Nat.eqb v (g_verts g)) eqn:D; [eauto|]. apply (dget_None _ nat_eqb_ok) in D. exfalso. apply D. exact Hv. }
      apply (step_token g W p v ts vx GI Hp D) in Vp. rewrite E, <- E2 in Vp. apply (step_token g W2 p2 v ts vx GI2 Hp2 D) in Vp. apply in_map_iff. exists (v, ts). auto. }
    destruct (str_dec (fst p) (fst q)) as [E|N]; [apply (sigil_unique g W GI p q Hp Hq E)|exfalso].
    destruct (SAME p v Hp Vp) as [p2 [Hp2 [Ep Vp2]]]. destruct (SAME q v Hq Vq) as [q2 [Hq2 [Eq Vq2]]].
    assert (OLD : forall p2, In p2 W2 -> In v (map fst (snd p2)) -> exists i p0, nth_error W0 i = Some p0 /\ fst p0 = fst p2 /\ In v (map fst (snd p0))).
    { intros x Hx Vx. destruct (Forall2_In_r _ _ _ _ (jo_paths _ _ _ _ _ _ JO) Hx) as [p0 [Hp0 [F1 [F2 F3]]]]. apply In_nth_error in Hp0 as [i Hi]. exists i, p0.
      split; [assumption|]. split; [assumption|]. apply in_map_iff in Vx as [[v' ts] [Ev Vx]]. cbn [fst] in Ev. subst v'. rewrite F2. unfold unfold_path.
      destruct (gi_on _ _ GI2 x v ts Hx Vx) as [Hv NT]. destruct (jo_head _ _ _ _ _ _ JO v Hv) as [rst EP].
      apply in_map_iff. destruct ts as [|t ts]; [congruence|]. exists (v, [t]). split; [reflexivity|]. apply in_flat_map. exists (v, t :: ts). split; [assumption|].
      rewrite EP. left. reflexivity. }
    destruct (OLD p2 Hp2 Vp2) as [i [p0 [Hi [E1 V1]]]]. destruct (OLD q2 Hq2 Vq2) as [j [q0 [Hj [E2 V2]]]].
    destruct (lt_eq_lt_dec i j) as [[L|L]|L].
    - apply (rejected_apart f ti st W0 NO AL i j p0 q0 v L Hi Hj V1 V2).
    - subst j. assert (p0 = q0) by congruence. subst q0. congruence.
    - apply (rejected_apart f ti st W0 NO AL j i q0 p0 v L Hj Hi V2 V1).
  Qed.
End Reject.
