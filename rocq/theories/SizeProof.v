(** The number of columns of an alignment table (C85, C86). *)
From Verif Require Import Py Lib TokenModel SuffixModel IndexModel GraphModel AlignModel TableModel NearModel ExportModel
  CollateModel GraphSpec CollateSpec TableSpec GraphProof MergeProof AlignerProof RankProof TableProof CollateProof IndexProof StageProof
  ResultProof FactsProof IdentProof NearProof ReadProof CommonProof ExportProof SegProof SizeSpec.
From Coq Require Import QArith.
Open Scope list_scope.
Open Scope nat_scope.

Section Parts.
  Variables (cc : cclass) (topo : graph -> res (list vid)) (ratio : str -> str -> Q).
  Hypothesis TO : topo_ok topo.

  (** What a table is made of. *)
  Lemma table_parts : forall c o t, good_sigla c -> o_near o = false -> collate cc topo ratio c o = Ok (OTable t) ->
    exists g W rk m l, collate_graph cc topo ratio c o = Ok (g, ranking_for rk m l) /\ graph_of g W /\ W <> [] /\ Forall2 carries c W /\
      rank_ok g rk m l /\ t = the_table W rk m l (map w_sigil c) /\
      (forall p q v ts ts', In p W -> In q W -> In (v, ts) (snd p) -> In (v, ts') (snd q) -> map tk_str ts = map tk_str ts') /\
      (o_segmentation o = false -> forall p v ts, In p W -> In (v, ts) (snd p) -> exists k, ts = [k]) /\
      (o_segmentation o = true -> forall u w, In u (vertices g) -> ~ joinable g u w).
  Proof.
    intros c o t [ND NE] Hn H. destruct (collate_table_inv cc topo ratio c o t H) as [g [r [H1 H2]]].
    destruct (result_spec cc topo ratio TO c o g r ND NE H1) as [ti [st [W0 [W [part RS]]]]].
    destruct (rs_near _ _ _ _ _ _ _ _ _ _ _ RS Hn) as [N0 [rk [m [l [RO E]]]]]. subst r.
    pose proof (rs_joined _ _ _ _ _ _ _ _ _ _ _ RS) as JO. pose proof (jo_graph _ _ _ _ _ _ JO) as GI.
    assert (NN : without_near g = g) by (destruct g; cbn in N0; subst; reflexivity). rewrite NN in *.
    pose proof (rs_carries _ _ _ _ _ _ _ _ _ _ _ RS) as CA.
    assert (NW : W <> []) by (apply (carries_nonempty c); [apply (collate_nonempty cc topo ratio c o g _ H1)|assumption]).
    exists g, W, rk, m, l. do 5 (split; [assumption|]). split; [|split; [|split]].
    - rewrite (table_spec g W rk m l GI RO) in H2. injection H2 as <-. reflexivity.
    - intros p q v ts ts' Hp Hq A B.
      rewrite (joined_readings cc _ _ _ _ _ _ _ _ (rs_aligner _ _ _ _ _ _ _ _ _ _ _ RS) JO p v ts Hp A).
      rewrite (joined_readings cc _ _ _ _ _ _ _ _ (rs_aligner _ _ _ _ _ _ _ _ _ _ _ RS) JO q v ts' Hq B). reflexivity.
    - intros Hs p v ts Hp A. destruct (rs_plain _ _ _ _ _ _ _ _ _ _ _ RS Hs) as [_ [_ P3]].
      pose proof (joined_readings cc _ _ _ _ _ _ _ _ (rs_aligner _ _ _ _ _ _ _ _ _ _ _ RS) JO p v ts Hp A) as Q. rewrite P3 in Q.
      destruct ts as [|k [|? ?]]; try discriminate. eauto.
    - apply (rs_maximal _ _ _ _ _ _ _ _ _ _ _ RS).
  Qed.
End Parts.

(** ** Lower and upper bound *)
Lemma filled_le : forall (cells : list cell), Forall (fun c => length (cell_tokens c) <= 1) cells -> length (flat_map cell_tokens cells) <= length cells.
Proof. induction 1 as [|c cells L F IH]; [apply le_n|]. cbn [flat_map length]. rewrite app_length. lia. Qed.

Lemma sum_filled : forall n (rows : list (list cell)), Forall (fun r => length r = n) rows ->
  (forall i, i < n -> exists r ts, In r rows /\ nth_error r i = Some (Some ts) /\ ts <> []) ->
  n <= list_sum (map (fun r => length (flat_map cell_tokens r)) rows).
Proof.
  intros n. induction n as [|n IH]; intros rows L F; [lia|].
  (* drop the first column *)
  assert (LT : Forall (fun r => length r = n) (map (@tl cell) rows)).
  { rewrite Forall_map. apply Forall_impl with (2 := L). intros [|? r] Q; cbn in *; lia. }
  specialize (IH _ LT).
  assert (A : list_sum (map (fun r => length (flat_map cell_tokens r)) (map (@tl cell) rows)) + list_sum (map (fun r => length (cell_tokens (hd None r))) rows)
    = list_sum (map (fun r => length (flat_map cell_tokens r)) rows)).
  { clear - L. induction L as [|r rows Q L IH]; [reflexivity|]. cbn [map list_sum fold_right]. unfold list_sum in *. cbn [fold_right]. rewrite <- IH.
    destruct r as [|c r]; [discriminate|]. cbn [tl hd flat_map]. rewrite app_length. lia. }
  rewrite <- A. assert (B : 1 <= list_sum (map (fun r => length (cell_tokens (hd None r))) rows)).
  { destruct (F 0) as [r [ts [R1 [R2 R3]]]]; [lia|]. clear - R1 R2 R3. induction rows as [|x rows IH]; [contradiction|]. unfold list_sum in *. cbn [map fold_right].
    destruct R1 as [->|R1]; [|specialize (IH R1); lia]. destruct r as [|y r]; [discriminate|]. cbn in R2. injection R2 as ->. cbn [hd cell_tokens].
    destruct ts; [congruence|]. cbn [length]. lia. }
  enough (n <= list_sum (map (fun r => length (flat_map cell_tokens r)) (map (@tl cell) rows))) by lia.
  apply IH. intros i Hi. destruct (F (S i)) as [r [ts [R1 [R2 R3]]]]; [lia|]. exists (tl r), ts. split; [apply in_map; assumption|].
  split; [|assumption]. destruct r; [discriminate|exact R2].
Qed.

(** ** Nothing in common *)
Section Apart.
  Variables (g : graph) (W : list wpath) (rk : vid -> nat) (m : nat) (l : list vid).
  Hypothesis GI : graph_of g W.
  Hypothesis RO : rank_ok g rk m l.
  Hypothesis NW : W <> [].
  Hypothesis ALONE : forall p q v, In p W -> In q W -> In v (map fst (snd p)) -> In v (map fst (snd q)) -> p = q.

  Lemma not_ends : forall p v, In p W -> In v (map fst (snd p)) -> v <> v_start /\ v <> v_end.
  Proof.
    intros p v Hp Hv. pose proof (gi_simple _ _ GI p Hp) as N. unfold chain in N. inversion N as [|? ? A B]; subst. split.
    - intros ->. apply A. apply in_or_app. left. assumption.
    - intros ->. apply NoDup_app_iff in B as [_ [_ B]]. apply (B v_end Hv). left. reflexivity.
  Qed.

  (** The edges into a vertex of a path. *)
  Lemma pred_on_path : forall p i u v, In p W -> nth_error (map fst (snd p)) i = Some v -> edge g u v -> nth_error (chain p) i = Some u.
  Proof.
    intros p i u v Hp Hv E. apply (graph_edge_path g W u v GI) in E as [q [Hq E]].
    pose proof (nth_error_In _ _ Hv) as Iv. destruct (not_ends p v Hp Iv) as [N1 N2].
    apply pairs_nth_inv in E as [j [J1 J2]].
    assert (q = p).
    { apply (ALONE q p v Hq Hp); [|assumption]. apply nth_error_In in J2. unfold chain in J2. destruct J2 as [J2|J2]; [congruence|].
      apply in_app_or in J2 as [J2|[J2|[]]]; [assumption|congruence]. }
    subst q. assert (nth_error (chain p) (S i) = Some v).
    { unfold chain. cbn [nth_error]. rewrite nth_error_app1; [assumption|]. apply nth_error_Some. congruence. }
    assert (S i = S j).
    { apply (proj1 (NoDup_nth_error (chain p)) (gi_simple _ _ GI p Hp)); [apply nth_error_Some; congruence|congruence]. }
    injection H0 as ->. assumption.
  Qed.

  Lemma apart_rank : forall p, In p W -> forall i v, nth_error (map fst (snd p)) i = Some v -> rk v = S i.
  Proof.
    intros p Hp. induction i as [|i IH]; intros v Hv.
    all: pose proof (nth_error_In _ _ Hv) as Iv; destruct (not_ends p v Hp Iv) as [N1 N2].
    all: apply in_map_iff in Iv as [[v' ts] [E Iv]]; cbn [fst] in E; subst v'; destruct (gi_on _ _ GI p v ts Hp Iv) as [Vg _].
    all: pose proof (ro_eq _ _ _ _ RO v Vg) as R; destruct (rk v) as [|k] eqn:Ek; [exfalso; apply N1; apply (rank_zero g W rk m l GI RO NW v Vg Ek)|].
    all: symmetry in R; apply rank_of_pos in R as [u [E1 E2]]; pose proof (pred_on_path p _ u v Hp Hv E1) as Q.
    - unfold chain in Q. cbn in Q. injection Q as <-. rewrite (rank_start g W rk m l GI RO) in E2. congruence.
    - unfold chain in Q. cbn [nth_error] in Q.
      assert (L : i < length (map fst (snd p))). { assert (S i < length (map fst (snd p))) by (apply nth_error_Some; congruence). lia. }
      rewrite nth_error_app1 in Q by assumption. rewrite <- E2, (IH u Q). reflexivity.
  Qed.

  Lemma apart_end_ge : forall p, In p W -> S (length (snd p)) <= rk v_end.
  Proof.
    intros p Hp. destruct (snd p) as [|s r] eqn:E.
    - pose proof (rank_le_end g W rk m l GI RO NW v_start (start_In _ _ GI)) as Q. specialize (Q ltac:(discriminate)). cbn [length]. lia.
    - assert (exists v, nth_error (map fst (snd p)) (length (snd p) - 1) = Some v) as [v Hv].
      { destruct (nth_error (map fst (snd p)) (length (snd p) - 1)) eqn:Q; [eauto|]. apply nth_error_None in Q. rewrite map_length, E in Q. cbn in Q. lia. }
      pose proof (apart_rank p Hp _ v Hv) as R. pose proof (nth_error_In _ _ Hv) as Iv. destruct (not_ends p v Hp Iv) as [_ N2].
      apply in_map_iff in Iv as [[v' ts] [E' Iv]]. cbn [fst] in E'. subst v'. destruct (gi_on _ _ GI p v ts Hp Iv) as [Vg _].
      pose proof (rank_le_end g W rk m l GI RO NW v Vg N2) as Q. rewrite E in R. rewrite R in Q. cbn [length] in *. lia.
  Qed.

  Lemma apart_end : exists p, In p W /\ rk v_end = S (length (snd p)).
  Proof.
    pose proof (ro_eq _ _ _ _ RO v_end (end_In _ _ GI)) as R.
    destruct (rk v_end) as [|k] eqn:Ek; [pose proof (rank_zero g W rk m l GI RO NW v_end (end_In _ _ GI) Ek); discriminate|].
    symmetry in R. apply rank_of_pos in R as [u [E1 E2]]. pose proof E1 as E. apply (graph_edge_path g W u v_end GI) in E1 as [q [Hq E1]].
    exists q. split; [assumption|]. f_equal. apply pairs_nth_inv in E1 as [j [J1 J2]].
    assert (S j = S (length (snd q))).
    { apply (proj1 (NoDup_nth_error (chain q)) (gi_simple _ _ GI q Hq)); [apply nth_error_Some; congruence|]. rewrite J2. unfold chain. cbn [nth_error].
      rewrite nth_error_app2 by (rewrite map_length; lia). rewrite map_length, Nat.sub_diag. reflexivity. }
    injection H as ->. unfold chain in J1. rewrite <- E2. destruct (snd q) as [|s r] eqn:Es.
    - cbn in J1. injection J1 as <-. rewrite (rank_start g W rk m l GI RO). reflexivity.
    - cbn [length nth_error] in J1. rewrite <- Es in J1.
      assert (LL : length (snd q) = S (length r)) by (rewrite Es; reflexivity).
      rewrite nth_error_app1 in J1 by (rewrite map_length; lia). apply (apart_rank q Hq). assumption.
  Qed.

  Lemma apart_cells : forall p, In p W ->
    map (cell_at rk p) (seq 1 (m - 2)) = map (fun s => Some (snd s)) (snd p) ++ repeat None (m - 2 - length (snd p)).
  Proof.
    intros p Hp. pose proof (rank_end_max g W rk m l GI RO NW) as EM. pose proof (apart_end_ge p Hp) as EG.
    apply list_ext. intros i. destruct (Nat.lt_ge_cases i (m - 2)) as [L|L].
    2: { rewrite (proj2 (nth_error_None _ i)) by (rewrite map_length, seq_length; assumption).
         rewrite (proj2 (nth_error_None _ i)) by (rewrite app_length, map_length, repeat_length; lia). reflexivity. }
    rewrite nth_error_map. rewrite (nth_error_nth' _ 0) by (rewrite seq_length; assumption). rewrite seq_nth by assumption. cbn [option_map].
    destruct (Nat.lt_ge_cases i (length (snd p))) as [Li|Li].
    - rewrite nth_error_app1 by (rewrite map_length; assumption). rewrite nth_error_map.
      destruct (nth_error (snd p) i) as [[v ts]|] eqn:E; [|apply nth_error_None in E; lia]. cbn [option_map snd]. f_equal.
      apply (cell_at_some g W rk m l p _ ts GI RO Hp). exists v. split; [apply nth_error_In in E; assumption|].
      apply (apart_rank p Hp). rewrite nth_error_map, E. reflexivity.
    - rewrite nth_error_app2 by (rewrite map_length; assumption). rewrite map_length.
      rewrite nth_error_repeat by lia. f_equal.
      destruct (cell_at rk p (1 + i)) as [ts|] eqn:E; [|reflexivity]. exfalso.
      apply (cell_at_some g W rk m l p _ ts GI RO Hp) in E as [v [Hv R]]. apply In_nth_error in Hv as [j Hj].
      assert (nth_error (map fst (snd p)) j = Some v) by (rewrite nth_error_map, Hj; reflexivity).
      rewrite (apart_rank p Hp j v H) in R. assert (j < length (snd p)) by (apply nth_error_Some; congruence). lia.
  Qed.

  (** Nothing can be joined only if every path has at most one step. *)
  Lemma apart_joined : (forall u w, In u (vertices g) -> ~ joinable g u w) -> forall p, In p W -> length (snd p) <= 1.
  Proof.
    intros NJ p Hp. destruct (snd p) as [|[a ta] [|[b tb] r]] eqn:E; cbn [length]; try lia. exfalso.
    assert (Pa : nth_error (map fst (snd p)) 0 = Some a) by (rewrite E; reflexivity).
    assert (Pb : nth_error (map fst (snd p)) 1 = Some b) by (rewrite E; reflexivity).
    pose proof (nth_error_In _ _ Pa) as Ia. pose proof (nth_error_In _ _ Pb) as Ib.
    destruct (not_ends p a Hp Ia) as [A1 A2]. destruct (not_ends p b Hp Ib) as [B1 B2].
    assert (Eab : edge g a b).
    { apply (graph_edge_path g W a b GI). exists p. split; [assumption|]. unfold chain. rewrite E. cbn. right. left. reflexivity. }
    destruct (graph_edge_verts g W a b GI Eab) as [Va _].
    apply (NJ a b Va). split; [assumption|]. split; [assumption|]. split.
    - intros w. split; [|intros ->; assumption]. intros Ew. apply (graph_edge_path g W a w GI) in Ew as [q [Hq Eq]].
      apply pairs_nth_inv in Eq as [j [J1 J2]].
      assert (q = p).
      { apply (ALONE q p a Hq Hp); [|assumption]. apply nth_error_In in J1. unfold chain in J1. destruct J1 as [J1|J1]; [congruence|].
        apply in_app_or in J1 as [J1|[J1|[]]]; [assumption|congruence]. }
      subst q. assert (j = 1).
      { apply (proj1 (NoDup_nth_error (chain p)) (gi_simple _ _ GI p Hp)); [apply nth_error_Some; congruence|]. rewrite J1. unfold chain. rewrite E. reflexivity. }
      subst j. unfold chain in J2. rewrite E in J2. cbn in J2. congruence.
    - intros u. split; [|intros ->; assumption]. intros Eu. pose proof (pred_on_path p 1 u b Hp Pb Eu) as Q. unfold chain in Q. rewrite E in Q. cbn in Q. congruence.
  Qed.
End Apart.

(** ** A graph to which witnesses are added does not get shorter *)
Lemma path_mono : forall g g' n u v, (forall a b, edge g a b -> edge g' a b) -> path_len g n u v -> path_len g' n u v.
Proof. intros g g' n u v H P. induction P; econstructor; eauto. Qed.

Section Refine.
  Variables (cc : cclass) (g0 g0' : graph) (W0 W0' : list wpath) (g g' : graph) (W W' : list wpath) (part part' : vid -> list vid).
  Hypothesis GI0 : graph_of g0 W0.
  Hypothesis GI0' : graph_of g0' W0'.
  Hypothesis J : joined cc g0 W0 g W part.
  Hypothesis J' : joined cc g0' W0' g' W' part'.
  Hypothesis MAX : forall u w, In u (vertices g) -> ~ joinable g u w.
  Hypothesis EDGE : forall u v, edge g0 u v -> edge g0' u v.
  Variables (rk : vid -> nat) (m : nat) (l : list vid) (rk' : vid -> nat) (m' : nat) (l' : list vid).
  Hypothesis RO : rank_ok g0 rk m l.
  Hypothesis RO' : rank_ok g0' rk' m' l'.

  (** One edge of the finer graph: inside a segment or to the next segment. *)
  Lemma step_weak : forall h i a b, In h (vertices g') -> nth_error (part' h) i = Some a -> edge g0' a b ->
    exists h' j, In h' (vertices g') /\ nth_error (part' h') j = Some b /\ (h' = h \/ edge g' h h').
  Proof.
    intros h i a b Hh A E. destruct (nth_error (part' h) (S i)) as [x|] eqn:X.
    - pose proof (part_link cc g0' W0' g' W' part' J' h i a x Hh A X) as [_ [_ [LK _]]]. apply LK in E. subst x. exists h, (S i). auto.
    - assert (La : last (part' h) h = a).
      { assert (NP : part' h <> []) by (intros Z; rewrite Z in A; destruct i; discriminate).
        pose proof (last_nth (part' h) h NP) as Q. apply nth_error_None in X. assert (i < length (part' h)) by (apply nth_error_Some; congruence).
        replace (length (part' h) - 1) with i in Q by lia. congruence. }
      assert (Eh : edge g' h b) by (apply (jo_edges _ _ _ _ _ _ J' h b Hh); rewrite La; assumption).
      pose proof (graph_edge_verts g' W' h b (jo_graph _ _ _ _ _ _ J') Eh) as [_ Hb]. exists b, 0. split; [assumption|]. split; [|auto].
      destruct (jo_head _ _ _ _ _ _ J' b Hb) as [r ->]. reflexivity.
  Qed.

  Lemma walk_weak : forall k a b, path_len g0' k a b -> forall n h i, path_len g' n v_start h -> In h (vertices g') -> nth_error (part' h) i = Some a ->
    exists n' h' j, n <= n' /\ path_len g' n' v_start h' /\ In h' (vertices g') /\ nth_error (part' h') j = Some b.
  Proof.
    intros k a b P. induction P as [a|k a b c P IH E]; intros n h i Q Hh A; [exists n, h, i; auto|].
    destruct (IH n h i Q Hh A) as [n1 [h1 [j1 [L1 [Q1 [H1 B1]]]]]].
    destruct (step_weak h1 j1 b c H1 B1 E) as [h2 [j2 [H2 [B2 [->|E2]]]]].
    - exists n1, h1, j2. auto.
    - exists (S n1), h2, j2. split; [lia|]. split; [econstructor; eassumption|]. auto.
  Qed.

  Lemma joinable_back : forall a b, edge g0 a b -> joinable g0' a b -> joinable g0 a b.
  Proof.
    intros a b E [A [B [C D]]]. split; [assumption|]. split; [assumption|]. split.
    - intros w. split; [intros Q; apply C; apply EDGE; assumption|intros ->; assumption].
    - intros u. split; [intros Q; apply D; apply EDGE; assumption|intros ->; assumption].
  Qed.

  (** Between two segments of the coarser graph nothing is joined in the finer one. *)
  Lemma not_joined : forall u v, In u (vertices g) -> edge g u v -> ~ joinable g0' (last (part u) u) v.
  Proof.
    intros u v Hu E JN. pose proof (jo_graph _ _ _ _ _ _ J) as GI. pose proof (graph_edge_verts g W u v GI E) as [_ Hv].
    pose proof (proj1 (jo_edges _ _ _ _ _ _ J u v Hu) E) as E0. pose proof (joinable_back _ _ E0 JN) as [A [B [C D]]].
    apply (MAX u v Hu). split; [|split; [assumption|split]].
    - intros ->. rewrite (proj1 (jo_ends _ _ _ _ _ _ J)) in A. apply A. reflexivity.
    - intros w. rewrite (jo_edges _ _ _ _ _ _ J u w Hu). apply C.
    - intros x. split; [|intros ->; assumption]. intros Ex. pose proof (graph_edge_verts g W x v GI Ex) as [Hx _].
      apply (jo_edges _ _ _ _ _ _ J x v Hx) in Ex. apply D in Ex.
      assert (N : forall y, In y (vertices g) -> nth_error (part y) (length (part y) - 1) = Some (last (part y) y)).
      { intros y Hy. apply last_nth. destruct (jo_head _ _ _ _ _ _ J y Hy) as [r ->]. discriminate. }
      pose proof (N x Hx) as N1. pose proof (N u Hu) as N2. rewrite Ex in N1.
      apply (part_disjoint cc g0 W0 g W part J rk m l RO x u _ _ _ Hx Hu N1 N2).
  Qed.

  Lemma path_refined : forall n v, path_len g n v_start v -> In v (vertices g) ->
    exists n' h j, n <= n' /\ path_len g' n' v_start h /\ In h (vertices g') /\ nth_error (part' h) j = Some v.
  Proof.
    pose proof (jo_graph _ _ _ _ _ _ J) as GI. pose proof (jo_graph _ _ _ _ _ _ J') as GI'.
    intros n v P. remember v_start as s eqn:Es in P. induction P as [s|n s u v P IH E]; intros Hv; subst.
    - exists 0, v_start, 0. split; [lia|]. split; [constructor|]. split; [apply (start_In _ _ GI')|]. rewrite (proj1 (jo_ends _ _ _ _ _ _ J')). reflexivity.
    - pose proof (graph_edge_verts g W u v GI E) as [Hu _]. destruct (IH eq_refl Hu) as [n1 [h1 [j1 [L1 [Q1 [H1 B1]]]]]].
      assert (N : nth_error (part u) (length (part u) - 1) = Some (last (part u) u)).
      { apply last_nth. destruct (jo_head _ _ _ _ _ _ J u Hu) as [r ->]. discriminate. }
      pose proof (part_path cc g0 W0 g W part J u _ _ Hu N) as PP. apply (path_mono g0 g0' _ _ _ EDGE) in PP.
      destruct (walk_weak _ _ _ PP n1 h1 j1 Q1 H1 B1) as [n2 [h2 [j2 [L2 [Q2 [H2 B2]]]]]].
      pose proof (proj1 (jo_edges _ _ _ _ _ _ J u v Hu) E) as E0. apply EDGE in E0.
      destruct (nth_error (part' h2) (S j2)) as [x|] eqn:X.
      + exfalso. pose proof (part_link cc g0' W0' g' W' part' J' h2 j2 _ x H2 B2 X) as LK. pose proof LK as [_ [_ [C _]]].
        apply C in E0. subst x. apply (not_joined u v Hu E LK).
      + assert (La : last (part' h2) h2 = last (part u) u).
        { assert (NP : part' h2 <> []) by (intros Z; rewrite Z in B2; destruct j2; discriminate).
          pose proof (last_nth (part' h2) h2 NP) as Q. apply nth_error_None in X. assert (j2 < length (part' h2)) by (apply nth_error_Some; congruence).
          replace (length (part' h2) - 1) with j2 in Q by lia. congruence. }
        assert (Eh : edge g' h2 v) by (apply (jo_edges _ _ _ _ _ _ J' h2 v H2); rewrite La; assumption).
        pose proof (graph_edge_verts g' W' h2 v GI' Eh) as [_ Hb]. exists (S n2), v, 0. split; [lia|]. split; [econstructor; eassumption|].
        split; [assumption|]. destruct (jo_head _ _ _ _ _ _ J' v Hb) as [r ->]. reflexivity.
  Qed.

  Lemma end_refined : forall n, path_len g n v_start v_end -> exists n', n <= n' /\ path_len g' n' v_start v_end.
  Proof.
    intros n P. pose proof (jo_graph _ _ _ _ _ _ J) as GI. pose proof (jo_graph _ _ _ _ _ _ J') as GI'.
    destruct (path_refined n v_end P (end_In _ _ GI)) as [n' [h [j [L [Q [Hh B]]]]]]. exists n'. split; [assumption|].
    assert (B' : nth_error (part' v_end) 0 = Some v_end) by (rewrite (proj2 (jo_ends _ _ _ _ _ _ J')); reflexivity).
    destruct (part_disjoint cc g0' W0' g' W' part' J' rk' m' l' RO' h v_end j 0 v_end Hh (end_In _ _ GI') B B') as [-> _]. assumption.
  Qed.
End Refine.
