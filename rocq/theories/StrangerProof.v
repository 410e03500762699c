(** A witness that has nothing in common with the others (C90). *)
From Verif Require Import Py Lib TokenModel SuffixModel IndexModel GraphModel AlignModel TableModel NearModel ExportModel
  CollateModel GraphSpec CollateSpec TableSpec GraphProof MergeProof AlignerProof RankProof TableProof CollateProof IndexProof StageProof
  ResultProof FactsProof IdentProof NearProof ReadProof CommonProof ExportProof SegProof GrowSpec GrowProof SizeSpec SizeProof ShapeProof.
From Coq Require Import QArith Sorted.
Open Scope list_scope.
Open Scope nat_scope.

(** Two strictly ascending lists with the same members are equal. *)
Lemma ascending_same : forall {A} (f : A -> nat) l1 l2, StronglySorted (fun a b => f a < f b) l1 -> StronglySorted (fun a b => f a < f b) l2 ->
  (forall x, In x l1 <-> In x l2) -> l1 = l2.
Proof.
  intros A f. induction l1 as [|a l1 IH]; intros l2 S1 S2 M.
  - destruct l2 as [|b l2]; [reflexivity|]. exfalso. apply (proj2 (M b)). left. reflexivity.
  - destruct l2 as [|b l2]; [exfalso; apply (proj1 (M a)); left; reflexivity|].
    inversion S1 as [|? ? T1 F1]; subst. inversion S2 as [|? ? T2 F2]; subst. rewrite Forall_forall in F1, F2.
    assert (a = b).
    { destruct (proj1 (M a) (or_introl eq_refl)) as [E|E]; [congruence|]. destruct (proj2 (M b) (or_introl eq_refl)) as [E'|E']; [congruence|].
      specialize (F1 _ E'). specialize (F2 _ E). lia. }
    subst b. f_equal. apply IH; [assumption|assumption|]. intros x. split; intros H.
    + destruct (proj1 (M x) (or_intror H)) as [E|E]; [subst; specialize (F1 _ H); lia|assumption].
    + destruct (proj2 (M x) (or_intror H)) as [E|E]; [subst; specialize (F2 _ H); lia|assumption].
Qed.

Lemma sorted_trans : forall {A} (f : A -> nat) l, (forall i a b, nth_error l i = Some a -> nth_error l (S i) = Some b -> f a < f b) -> StronglySorted (fun a b => f a < f b) l.
Proof.
  intros A f. induction l as [|a l IH]; intros H; constructor.
  - apply IH. intros i x y. apply (H (S i)).
  - assert (S0 : StronglySorted (fun a b => f a < f b) l) by (apply IH; intros i x y; apply (H (S i))). clear IH.
    destruct l as [|b l]; [constructor|]. pose proof (H 0 a b eq_refl eq_refl) as L. inversion S0 as [|? ? _ F]; subst. constructor; [assumption|].
    apply Forall_impl with (2 := F). intros c Hc. lia.
Qed.

(** Growing keeps the paths. *)
Section Paths.
  Variables (g g' : graph) (W W' : list wpath) (sgs : list str).
  Hypothesis GI : graph_of g W.
  Hypothesis GI' : graph_of g' W'.
  Hypothesis GR : grown sgs g g'.
  Variables (rk' : vid -> nat) (m' : nat) (l' : list vid).
  Hypothesis RO' : rank_ok g' rk' m' l'.

  Lemma step_token : forall (g : graph) (W : list wpath) p v ts vx, graph_of g W -> In p W -> dget Nat.eqb v (g_verts g) = Some vx ->
    (In (v, ts) (snd p) <-> dget str_eqb (fst p) (v_tokens vx) = Some ts).
  Proof.
    clear. intros g W p v ts vx GI Hp D. rewrite (gi_tokens _ _ GI v vx D). split.
    - intros H. apply (In_dget _ str_eqb_ok).
      + assert (forall X, NoDup (map fst X) -> (forall k, In k (map fst (tokens_on X v)) -> In k (map fst X)) /\ NoDup (map fst (tokens_on X v))) as G.
        { clear. induction X as [|x X IH]; intros N; [split; [intros k []|constructor]|]. cbn [map] in N. inversion N as [|? ? N1 N2]; subst. destruct (IH N2) as [I1 I2].
          unfold tokens_on in *. cbn [flat_map]. destruct (dget Nat.eqb v (snd x)) as [ts|]; cbn [app map fst].
          - split; [intros k [<-|H]; [left; reflexivity|right; apply I1; assumption]|]. constructor; [intro H; apply N1, I1; assumption|assumption].
          - split; [intros k H; right; apply I1; assumption|assumption]. }
        apply (G W (gi_sigla _ _ GI)).
      + apply tokens_on_In. exists p. split; [assumption|]. split; [reflexivity|]. apply (In_dget _ nat_eqb_ok); [|assumption].
        pose proof (gi_simple _ _ GI p Hp) as N. unfold chain in N. inversion N; subst. apply NoDup_app_iff in H3. tauto.
    - intros H. apply (dget_In _ str_eqb_ok) in H. apply tokens_on_In in H as [q [Q1 [Q2 Q3]]].
      assert (q = p) by (apply (sigil_unique g W GI); assumption). subst q. apply (dget_In _ nat_eqb_ok) in Q3. assumption.
  Qed.

  Lemma path_kept : forall p, In p W -> In (fst p) sgs -> In (fst p) (map fst W') -> In p W'.
  Proof.
    intros p Hp Sp Ip. apply in_map_iff in Ip as [p' [E Hp']].
    assert (snd p = snd p').
    { apply (ascending_same (fun s : vid * list token => rk' (fst s))).
      - apply sorted_trans. intros i [a ta] [b tb] A B. cbn [fst]. apply (ro_edge _ _ _ _ RO'). apply (gr_edge _ _ _ GR).
        apply (graph_edge_path g W a b GI). exists p. split; [assumption|].
        assert (X : forall k s, nth_error (snd p) k = Some s -> nth_error (chain p) (S k) = Some (fst s)).
        { intros k s H. unfold chain. cbn [nth_error]. rewrite nth_error_app1 by (rewrite map_length; apply nth_error_Some; congruence). apply map_nth_error. assumption. }
        apply (pairs_nth _ (S i)); [apply (X i (a, ta) A)|apply (X (S i) (b, tb) B)].
      - apply (path_sorted g' W' rk' m' l' GI' RO' p' Hp').
      - intros [v ts]. split; intros H.
        + destruct (gi_on _ _ GI p v ts Hp H) as [Vv _]. destruct (dget_Some_key _ nat_eqb_ok v (g_verts g) Vv) as [vx D].
          destruct (gr_vertex _ _ _ GR v vx D) as [vx' [D' [_ K]]]. apply (step_token g' W' p' v ts vx' GI' Hp' D'). rewrite E, (K _ Sp).
          apply (step_token g W p v ts vx GI Hp D). assumption.
        + destruct (gi_on _ _ GI' p' v ts Hp' H) as [Vv' _]. destruct (dget_Some_key _ nat_eqb_ok v (g_verts g') Vv') as [vx' D'].
          pose proof (proj1 (step_token g' W' p' v ts vx' GI' Hp' D') H) as T. rewrite E in T.
          destruct (in_dec Nat.eq_dec v (vertices g)) as [Vv|Nv].
          * destruct (dget_Some_key _ nat_eqb_ok v (g_verts g) Vv) as [vx D]. destruct (gr_vertex _ _ _ GR v vx D) as [vx2 [D2 [_ K]]].
            assert (vx2 = vx') by congruence. subst vx2. rewrite (K _ Sp) in T. apply (step_token g W p v ts vx GI Hp D). assumption.
          * rewrite (gr_new _ _ _ GR v vx' D' Nv _ Sp) in T. discriminate T. }
    destruct p as [sg s], p' as [sg' s']. cbn [fst snd] in *. subst. assumption.
  Qed.
End Paths.

Section Stranger.
  Variables (g : graph) (W : list wpath) (rk : vid -> nat) (m : nat) (l : list vid).
  Variables (g' : graph) (W' : list wpath) (rk' : vid -> nat) (m' : nat) (l' : list vid) (q : wpath).
  Hypothesis GI : graph_of g W.
  Hypothesis RO : rank_ok g rk m l.
  Hypothesis NW : W <> [].
  Hypothesis GI' : graph_of g' W'.
  Hypothesis RO' : rank_ok g' rk' m' l'.
  Hypothesis NW' : W' <> [].
  Hypothesis KEEP : forall p, In p W -> In p W'.
  Hypothesis ONLY : forall p, In p W' -> In p W \/ p = q.
  Hypothesis Hq : In q W'.
  Hypothesis APART : forall p v, In p W -> In v (map fst (snd p)) -> ~ In v (map fst (snd q)).

  (** The ways to a vertex of the old paths and to a vertex of the new one. *)
  Lemma ways : forall n v, path_len g' n v_start v ->
    (v = v_start -> n = 0) /\
    (forall p, In p W -> In v (map fst (snd p)) -> path_len g n v_start v) /\
    (forall i, nth_error (map fst (snd q)) i = Some v -> n = S i).
  Proof.
    intros n v P. remember v_start as s eqn:Es in P. induction P as [s|n s u v P IH E]; subst.
    - split; [reflexivity|]. split; [constructor|]. intros i Hi. exfalso. apply nth_error_In in Hi. apply (proj1 (not_ends g' W' GI' q v_start Hq Hi)). reflexivity.
    - specialize (IH eq_refl). destruct IH as [I0 [I1 I2]]. split; [|split].
      + intros ->. pose proof (ro_edge _ _ _ _ RO' u v_start E) as Z. rewrite (rank_start g' W' rk' m' l' GI' RO') in Z. lia.
      + intros p Hp Hv. destruct (not_ends g W GI p v Hp Hv) as [N1 N2].
        apply (graph_edge_path g' W' u v GI') in E as [x [Hx E]]. pose proof E as E0. apply pairs_nth_inv in E as [j [J1 J2]].
        pose proof (chain_inner x v (S j) J2 N1 N2) as Vx.
        destruct (ONLY x Hx) as [Wx|Qx]; [|exfalso; rewrite Qx in Vx; apply (APART p v Hp Hv); assumption].
        assert (Eg : edge g u v) by (apply (graph_edge_path g W u v GI); exists x; split; assumption).
        apply pl_snoc with u; [|assumption].
        destruct (Nat.eq_dec u v_start) as [->|Nu]; [rewrite (I0 eq_refl); constructor|].
        assert (Ne : u <> v_end).
        { intros ->. pose proof (ro_edge _ _ _ _ RO v_end v Eg) as Z. destruct (graph_edge_verts g W v_end v GI Eg) as [_ Vv].
          pose proof (rank_le_end g W rk m l GI RO NW v Vv N2). lia. }
        apply (I1 x Wx). apply (chain_inner x u j J1 Nu Ne).
      + intros i Hi. pose proof (nth_error_In _ _ Hi) as Iv. destruct (not_ends g' W' GI' q v Hq Iv) as [N1 N2].
        apply (graph_edge_path g' W' u v GI') in E as [x [Hx E]]. apply pairs_nth_inv in E as [j [J1 J2]].
        pose proof (chain_inner x v (S j) J2 N1 N2) as Vx.
        assert (x = q) by (destruct (ONLY x Hx) as [Wx|Qx]; [exfalso; apply (APART x v Wx Vx Iv)|assumption]). subst x.
        assert (S i = S j).
        { apply (proj1 (NoDup_nth_error (chain q)) (gi_simple _ _ GI' q Hq)); [unfold chain; cbn [length]; rewrite app_length|].
          - assert (i < length (map fst (snd q))) by (apply nth_error_Some; congruence). lia.
          - rewrite J2. unfold chain. cbn [nth_error]. rewrite nth_error_app1 by (apply nth_error_Some; congruence). assumption. }
        injection H as ->. f_equal. destruct j as [|j].
        * unfold chain in J1. cbn in J1. injection J1 as <-. apply I0. reflexivity.
        * unfold chain in J1. cbn [nth_error] in J1. assert (j < length (map fst (snd q))). { assert (S j < length (map fst (snd q))) by (apply nth_error_Some; congruence). lia. }
          rewrite nth_error_app1 in J1 by assumption. apply I2. assumption.
  Qed.

  Lemma edge_kept : forall u v, edge g u v -> edge g' u v.
  Proof. intros u v E. apply (graph_edge_path g W u v GI) in E as [p [Hp E]]. apply (graph_edge_path g' W' u v GI'). exists p. split; [apply KEEP; assumption|assumption]. Qed.

  Lemma stranger_rank : forall p v, In p W -> In v (map fst (snd p)) -> rk' v = rk v.
  Proof.
    intros p v Hp Hv. destruct (on_vertex_inner g W GI p v Hp Hv) as [Vv _]. destruct (on_vertex_inner g' W' GI' p v (KEEP p Hp) Hv) as [Vv' _].
    destruct (longest g W rk m l GI RO NW v Vv) as [P1 P2]. destruct (longest g' W' rk' m' l' GI' RO' NW' v Vv') as [Q1 Q2].
    apply Nat.le_antisymm.
    - apply P2. apply (ways _ v Q1) with p; assumption.
    - apply Q2. apply (path_mono g g' _ _ _ edge_kept P1).
  Qed.

  Lemma stranger_rank_q : forall i v, nth_error (map fst (snd q)) i = Some v -> rk' v = S i.
  Proof.
    intros i v Hi. pose proof (nth_error_In _ _ Hi) as Iv. destruct (on_vertex_inner g' W' GI' q v Hq Iv) as [Vv' _].
    destruct (longest g' W' rk' m' l' GI' RO' NW' v Vv') as [Q1 _]. apply (ways _ v Q1). assumption.
  Qed.

  Lemma stranger_end : rk' v_end = Nat.max (rk v_end) (S (length (snd q))).
  Proof.
    apply Nat.le_antisymm.
    - destruct (longest g' W' rk' m' l' GI' RO' NW' v_end (end_In _ _ GI')) as [Q1 _].
      remember (rk' v_end) as n eqn:En. clear En. inversion Q1 as [|n0 a u b P E E1 E2 E3]; subst.
      apply (graph_edge_path g' W' u v_end GI') in E as [x [Hx E]]. pose proof E as E0. apply pairs_nth_inv in E as [j [J1 J2]].
      destruct (ways _ u P) as [A0 [A1 A2]].
      destruct (Nat.eq_dec u v_start) as [->|Nu]; [rewrite (A0 eq_refl); lia|].
      assert (Ne : u <> v_end).
      { intros ->. assert (Z : j = S j) by (apply (proj1 (NoDup_nth_error (chain x)) (gi_simple _ _ GI' x Hx)); [apply nth_error_Some; congruence|congruence]). lia. }
      pose proof (chain_inner x u j J1 Nu Ne) as Ux.
      destruct (ONLY x Hx) as [Wx| ->].
      + assert (Eg : edge g u v_end) by (apply (graph_edge_path g W u v_end GI); exists x; split; assumption).
        specialize (A1 x Wx Ux). pose proof (proj2 (longest g W rk m l GI RO NW v_end (end_In _ _ GI)) (S n0) (pl_snoc g n0 v_start u v_end A1 Eg)). lia.
      + apply In_nth_error in Ux as [i Hi]. rewrite (A2 i Hi). assert (i < length (map fst (snd q))) by (apply nth_error_Some; congruence). rewrite map_length in *. lia.
    - apply Nat.max_lub.
      + destruct (longest g W rk m l GI RO NW v_end (end_In _ _ GI)) as [P1 _]. apply (proj2 (longest g' W' rk' m' l' GI' RO' NW' v_end (end_In _ _ GI'))).
        apply (path_mono g g' _ _ _ edge_kept P1).
      + destruct (Nat.eq_dec (length (snd q)) 0) as [Z|Z].
        * pose proof (rank_le_end g' W' rk' m' l' GI' RO' NW' v_start (start_In _ _ GI')) as Q. specialize (Q ltac:(discriminate)). lia.
        * assert (exists v, nth_error (map fst (snd q)) (length (snd q) - 1) = Some v) as [v Hv].
          { destruct (nth_error (map fst (snd q)) (length (snd q) - 1)) eqn:Q; [eauto|]. apply nth_error_None in Q. rewrite map_length in Q. lia. }
          pose proof (stranger_rank_q _ v Hv) as R. pose proof (nth_error_In _ _ Hv) as Iv. destruct (on_vertex_inner g' W' GI' q v Hq Iv) as [Vg [_ N2]].
          pose proof (rank_le_end g' W' rk' m' l' GI' RO' NW' v Vg N2) as Q. lia.
  Qed.

  Lemma stranger_old_cells : forall p, In p W ->
    map (cell_at rk' p) (seq 1 (m' - 2)) = map (cell_at rk p) (seq 1 (m - 2)) ++ repeat None (m' - m).
  Proof.
    intros p Hp. pose proof (rank_end_max g W rk m l GI RO NW) as EM. pose proof (rank_end_max g' W' rk' m' l' GI' RO' NW') as EM'. pose proof stranger_end as SE.
    assert (2 <= m). { pose proof (rank_le_end g W rk m l GI RO NW v_start (start_In _ _ GI)) as Q. specialize (Q ltac:(discriminate)). lia. }
    replace (m' - 2) with ((m - 2) + (m' - m)) by lia. rewrite seq_app, map_app. f_equal.
    - apply map_ext. intros x. apply cell_at_ext. intros v Hv. apply (stranger_rank p v Hp Hv).
    - apply list_ext. intros i. destruct (Nat.lt_ge_cases i (m' - m)) as [L|L].
      2: { rewrite !(proj2 (nth_error_None _ i)) by (rewrite ?map_length, ?seq_length, ?repeat_length; assumption). reflexivity. }
      rewrite nth_error_map, (nth_error_nth' _ 0) by (rewrite seq_length; assumption). rewrite seq_nth by assumption. cbn [option_map].
      rewrite nth_error_repeat by lia. f_equal. destruct (cell_at rk' p (1 + (m - 2) + i)) as [ts|] eqn:E; [|reflexivity]. exfalso.
      apply (cell_at_some g' W' rk' m' l' p _ ts GI' RO' (KEEP p Hp)) in E as [v [Hv R]]. apply (in_map fst) in Hv. cbn [fst] in Hv.
      rewrite (stranger_rank p v Hp Hv) in R. destruct (on_vertex_inner g W GI p v Hp Hv) as [Vv [_ N2]]. pose proof (rank_le_end g W rk m l GI RO NW v Vv N2). lia.
  Qed.

  Lemma stranger_new_cells :
    map (cell_at rk' q) (seq 1 (m' - 2)) = map (fun s => Some (snd s)) (snd q) ++ repeat None (m' - 2 - length (snd q)).
  Proof.
    pose proof (rank_end_max g' W' rk' m' l' GI' RO' NW') as EM. pose proof stranger_end as EG.
    apply list_ext. intros i. destruct (Nat.lt_ge_cases i (m' - 2)) as [L|L].
    2: { rewrite (proj2 (nth_error_None _ i)) by (rewrite map_length, seq_length; assumption).
         rewrite (proj2 (nth_error_None _ i)) by (rewrite app_length, map_length, repeat_length; lia). reflexivity. }
    rewrite nth_error_map. rewrite (nth_error_nth' _ 0) by (rewrite seq_length; assumption). rewrite seq_nth by assumption. cbn [option_map].
    destruct (Nat.lt_ge_cases i (length (snd q))) as [Li|Li].
    - rewrite nth_error_app1 by (rewrite map_length; assumption). rewrite nth_error_map.
      destruct (nth_error (snd q) i) as [[v ts]|] eqn:E; [|apply nth_error_None in E; lia]. cbn [option_map snd]. f_equal.
      apply (cell_at_some g' W' rk' m' l' q _ ts GI' RO' Hq). exists v. split; [apply nth_error_In in E; assumption|].
      apply stranger_rank_q. rewrite nth_error_map, E. reflexivity.
    - rewrite nth_error_app2 by (rewrite map_length; assumption). rewrite map_length.
      rewrite nth_error_repeat by lia. f_equal.
      destruct (cell_at rk' q (1 + i)) as [ts|] eqn:E; [|reflexivity]. exfalso.
      apply (cell_at_some g' W' rk' m' l' q _ ts GI' RO' Hq) in E as [v [Hv R]]. apply In_nth_error in Hv as [j Hj].
      assert (nth_error (map fst (snd q)) j = Some v) by (rewrite nth_error_map, Hj; reflexivity).
      rewrite (stranger_rank_q j v H) in R. assert (j < length (snd q)) by (apply nth_error_Some; congruence). lia.
  Qed.
End Stranger.
