(** Segmentation keeps the alignment. *)
From Verif Require Import Py Lib TokenModel SuffixModel IndexModel GraphModel AlignModel TableModel NearModel ExportModel CollateModel GraphSpec CollateSpec
  GraphProof MergeProof RankProof TableSpec AlignProof JoinProof AlignerProof CollateProof StageProof ResultProof FactsProof NearProof IdentProof TableProof SegSpec.
Open Scope list_scope.
Open Scope nat_scope.

Lemma on_path : forall g W v vx sg ts, graph_of g W -> dget Nat.eqb v (g_verts g) = Some vx ->
  (dget str_eqb sg (v_tokens vx) = Some ts <-> exists p, In p W /\ fst p = sg /\ In (v, ts) (snd p)).
Proof.
  intros g W v vx sg ts GI D. rewrite (gi_tokens _ _ GI v vx D). split.
  - intro H. apply (dget_In _ str_eqb_ok) in H. apply tokens_on_In in H as [p [A [B C]]]. exists p. split; [assumption|]. split; [assumption|].
    apply (dget_In _ nat_eqb_ok). assumption.
  - intros [p [A [B C]]]. apply (In_dget _ str_eqb_ok).
    + pose proof (gi_sigla _ _ GI) as ND. clear - ND. unfold tokens_on. induction W as [|q W IH]; [constructor|]. cbn [flat_map map] in *.
      inversion ND as [|? ? N1 N2]; subst. specialize (IH N2). rewrite map_app. destruct (dget Nat.eqb v (snd q)) as [ts|]; [|assumption].
      cbn. constructor; [|assumption]. intro I. apply N1. apply (tokens_on_sigla W v). exact I.
    + apply tokens_on_In. exists p. split; [assumption|]. split; [assumption|]. apply (In_dget _ nat_eqb_ok); [|assumption].
      pose proof (gi_simple _ _ GI p A) as ND. unfold chain in ND. inversion ND as [|? ? _ N2]; subst. apply NoDup_app_iff in N2. apply N2.
Qed.

Lemma last_nth : forall {A} (l : list A) d, l <> [] -> nth_error l (length l - 1) = Some (last l d).
Proof.
  intros A l d H. destruct (exists_last H) as [l' [x ->]]. rewrite last_last, app_length. cbn. rewrite nth_error_app2 by lia.
  replace (length l' + 1 - 1 - length l') with 0 by lia. reflexivity.
Qed.

Section Parts.
  Variables (cc : cclass) (g0 : graph) (W0 : list wpath) (g : graph) (W : list wpath) (part : vid -> list vid).
  Hypothesis GI0 : graph_of g0 W0.
  Hypothesis J : joined cc g0 W0 g W part.
  Variables (rk : vid -> nat) (m : nat) (l : list vid).
  Hypothesis RO : rank_ok g0 rk m l.

  Lemma part_link : forall v i a b, In v (vertices g) -> nth_error (part v) i = Some a -> nth_error (part v) (S i) = Some b -> joinable g0 a b.
  Proof. intros v i a b Hv A B. apply (jo_links _ _ _ _ _ _ J v a b Hv). eapply pairs_nth; eassumption. Qed.

  Lemma link_edge : forall a b, joinable g0 a b -> edge g0 a b.
  Proof. intros a b [_ [_ [H _]]]. apply H. reflexivity. Qed.

  Lemma part_0 : forall v, In v (vertices g) -> nth_error (part v) 0 = Some v.
  Proof. intros v Hv. destruct (jo_head _ _ _ _ _ _ J v Hv) as [r ->]. reflexivity. Qed.

  Lemma part_nth : forall v i j, In v (vertices g) -> j <= i -> i < length (part v) -> exists a, nth_error (part v) j = Some a.
  Proof. intros v i j Hv L1 L2. destruct (nth_error (part v) j) eqn:E; [eauto|]. apply nth_error_None in E. lia. Qed.

  (** Walking back from a common vertex. *)
  Lemma part_back : forall d v v' i i' a, In v (vertices g) -> In v' (vertices g) ->
    nth_error (part v) (i + d) = Some a -> nth_error (part v') (i' + d) = Some a -> exists b, nth_error (part v) i = Some b /\ nth_error (part v') i' = Some b.
  Proof.
    induction d as [|d IH]; intros v v' i i' a Hv Hv' A B; [rewrite Nat.add_0_r in A, B; eauto|].
    rewrite Nat.add_succ_r in A, B.
    destruct (part_nth v (S (i + d)) (i + d) Hv) as [x X]; [lia|apply nth_error_Some; congruence|].
    destruct (part_nth v' (S (i' + d)) (i' + d) Hv') as [x' X']; [lia|apply nth_error_Some; congruence|].
    pose proof (part_link v _ _ _ Hv X A) as L. pose proof (part_link v' _ _ _ Hv' X' B) as L'.
    assert (x = x'). { destruct L as [_ [_ [_ P]]]. symmetry. apply P. apply link_edge. assumption. }
    subst x'. apply (IH v v' i i' x); assumption.
  Qed.

  Lemma part_rank : forall v i j a b, In v (vertices g) -> i < j -> nth_error (part v) i = Some a -> nth_error (part v) j = Some b -> rk a < rk b.
  Proof.
    intros v i j a b Hv L A. revert b. induction L as [|j L IH]; intros b B.
    - apply (ro_edge _ _ _ _ RO). apply link_edge. eapply part_link; eassumption.
    - destruct (part_nth v (S j) j Hv) as [x X]; [lia|apply nth_error_Some; congruence|]. specialize (IH x X).
      assert (rk x < rk b) by (apply (ro_edge _ _ _ _ RO); apply link_edge; eapply part_link; eassumption). lia.
  Qed.

  (** A vertex that is left does not stand inside another part. *)
  Lemma part_head_only : forall n v w i, rk w < n -> In v (vertices g) -> In w (vertices g) -> nth_error (part v) (S i) = Some w -> False.
  Proof.
    induction n as [|n IH]; intros v w i L Hv Hw H; [lia|].
    destruct (part_nth v (S i) i Hv) as [a A]; [lia|apply nth_error_Some; congruence|].
    pose proof (part_link v _ _ _ Hv A H) as LK. pose proof (link_edge _ _ LK) as E.
    destruct (jo_preds _ _ _ _ _ _ J a w Hw E) as [x [Hx Lx]].
    destruct (jo_head _ _ _ _ _ _ J x Hx) as [rx Ex].
    assert (NE : part x <> []) by (rewrite Ex; discriminate).
    pose proof (last_nth (part x) x NE) as LN. rewrite Lx in LN. set (j := length (part x) - 1) in *.
    destruct (lt_eq_lt_dec i j) as [[C|C]|C].
    - destruct (part_back i v x 0 (j - i) a Hv Hx) as [b [B1 B2]]; [assumption|replace (j - i + i) with j by lia; assumption|].
      rewrite (part_0 v Hv) in B1. injection B1 as <-. 
      assert (rk v < rk w) by (apply (part_rank v 0 (S i) v w Hv ltac:(lia)); [apply part_0; assumption|assumption]).
      replace (j - i) with (S (j - i - 1)) in B2 by lia. apply (IH x v (j - i - 1) ltac:(lia) Hx Hv B2).
    - destruct (part_back i v x 0 0 a Hv Hx) as [b [B1 B2]]; [assumption|cbn; rewrite C; assumption|].
      rewrite (part_0 v Hv) in B1. rewrite (part_0 x Hx) in B2. assert (x = v) by congruence. subst x.
      assert (S i < length (part v)) by (apply nth_error_Some; congruence). unfold j in C. lia.
    - destruct (part_back j v x (i - j) 0 a Hv Hx) as [b [B1 B2]]; [replace (i - j + j) with i by lia; assumption|assumption|].
      rewrite (part_0 x Hx) in B2. injection B2 as <-.
      assert (rk x < rk w) by (apply (part_rank v (i - j) (S i) x w Hv ltac:(lia)); assumption).
      replace (i - j) with (S (i - j - 1)) in B1 by lia. apply (IH v x (i - j - 1) ltac:(lia) Hv Hx B1).
  Qed.

  Lemma part_disjoint : forall v v' i i' a, In v (vertices g) -> In v' (vertices g) -> nth_error (part v) i = Some a -> nth_error (part v') i' = Some a -> v = v' /\ i = i'.
  Proof.
    assert (G : forall v v' i i' a, i <= i' -> In v (vertices g) -> In v' (vertices g) -> nth_error (part v) i = Some a -> nth_error (part v') i' = Some a -> v = v' /\ i = i').
    { intros v v' i i' a L Hv Hv' A B. destruct (part_back i v v' 0 (i' - i) a Hv Hv' A) as [b [B1 B2]]; [replace (i' - i + i) with i' by lia; assumption|].
      rewrite (part_0 v Hv) in B1. injection B1 as <-. destruct (i' - i) as [|d] eqn:Ed.
      - rewrite (part_0 v' Hv') in B2. split; [congruence|lia].
      - exfalso. eapply (part_head_only (S (rk v)) v' v d); [lia|assumption..]. }
    intros v v' i i' a Hv Hv' A B. destruct (le_lt_dec i i') as [L|L]; [eauto|]. destruct (G v' v i' i a ltac:(lia) Hv' Hv B A). auto.
  Qed.

  Lemma unfold_in : forall s v0 ts0, In (v0, ts0) (unfold_path part s) <->
    exists v ts i t, In (v, ts) s /\ nth_error (part v) i = Some v0 /\ nth_error ts i = Some t /\ ts0 = [t].
  Proof.
    assert (C : forall (vs : list vid) (ts : list token) v0 ts0, In (v0, ts0) (combine vs (map (fun t => [t]) ts)) <->
      exists i t, nth_error vs i = Some v0 /\ nth_error ts i = Some t /\ ts0 = [t]).
    { induction vs as [|v vs IH]; intros [|t ts] v0 ts0; cbn [map combine In].
      - split; [contradiction|intros [[|i] [t [A _]]]; discriminate].
      - split; [contradiction|intros [[|i] [x [A _]]]; discriminate].
      - split; [contradiction|intros [[|i] [t [_ [A _]]]]; discriminate].
      - rewrite IH. split.
        + intros [E|[i [x [A [B D]]]]]; [injection E as <- <-; exists 0, t; auto|exists (S i), x; auto].
        + intros [[|i] [x [A [B D]]]]; cbn in A, B; [left; congruence|right; eauto]. }
    intros s v0 ts0. unfold unfold_path. rewrite in_flat_map. split.
    - intros [[v ts] [A B]]. apply C in B as [i [t [X [Y Z]]]]. eauto 8.
    - intros [v [ts [i [t [A [X [Y Z]]]]]]]. exists (v, ts). split; [assumption|]. apply C. eauto.
  Qed.

  Lemma path_corr : forall sg v0 t, (exists p0, In p0 W0 /\ fst p0 = sg /\ In (v0, [t]) (snd p0)) <->
    exists p v ts i, In p W /\ fst p = sg /\ In (v, ts) (snd p) /\ nth_error (part v) i = Some v0 /\ nth_error ts i = Some t.
  Proof.
    intros sg v0 t. pose proof (jo_paths _ _ _ _ _ _ J) as F. split.
    - intros [p0 [A [B C]]]. destruct (Forall2_In_l _ _ _ _ F A) as [p [P1 [P2 [P3 _]]]]. rewrite P3 in C. apply unfold_in in C as [v [ts [i [x [X1 [X2 [X3 X4]]]]]]].
      injection X4 as <-. exists p, v, ts, i. split; [assumption|]. split; [congruence|]. auto.
    - intros [p [v [ts [i [A [B [C [D E]]]]]]]]. destruct (Forall2_In_r _ _ _ _ F A) as [p0 [P1 [P2 [P3 _]]]]. exists p0. split; [assumption|]. split; [congruence|].
      rewrite P3. apply unfold_in. eauto 8.
  Qed.

  Lemma part_in : forall v a i, In v (vertices g) -> nth_error (part v) i = Some a -> In a (vertices g0).
  Proof.
    intros v a [|i] Hv H; [rewrite (part_0 v Hv) in H; injection H as <-; apply (jo_verts _ _ _ _ _ _ J); assumption|].
    destruct (part_nth v (S i) i Hv) as [x X]; [lia|apply nth_error_Some; congruence|].
    apply (graph_edge_verts g0 W0 x a GI0). apply link_edge. eapply part_link; eassumption.
  Qed.

  Lemma one_token_each : (forall p0 v ts, In p0 W0 -> In (v, ts) (snd p0) -> exists t, ts = [t]).
  Proof.
    intros p0 v ts A B. destruct (Forall2_In_l _ _ _ _ (jo_paths _ _ _ _ _ _ J) A) as [p [P1 [P2 [P3 _]]]]. rewrite P3 in B.
    apply unfold_in in B as [? [? [? [t [_ [_ [_ ->]]]]]]]. eauto.
  Qed.

  Theorem segments_aligned : forall sg t sg' t', aligned_at g0 sg t sg' t' <-> aligned_at g sg t sg' t'.
  Proof.
    pose proof (jo_graph _ _ _ _ _ _ J) as GI. intros sg t sg' t'. split.
    - intros [v0 [vx [ts [ts' [i [D [T [T' [N N']]]]]]]]].
      apply (on_path g0 W0 _ _ _ _ GI0 D) in T as [p0 [A [B C]]]. apply (on_path g0 W0 _ _ _ _ GI0 D) in T' as [p0' [A' [B' C']]].
      destruct (one_token_each p0 v0 ts A C) as [t1 ->]. destruct (one_token_each p0' v0 ts' A' C') as [t2 ->].
      destruct i as [|[|i]]; [|discriminate|discriminate]. injection N as ->. injection N' as ->.
      destruct (proj1 (path_corr sg v0 t)) as [p [v [us [i [X1 [X2 [X3 [X4 X5]]]]]]]]; [eauto|].
      destruct (proj1 (path_corr sg' v0 t')) as [p' [v' [us' [i' [Y1 [Y2 [Y3 [Y4 Y5]]]]]]]]; [eauto|].
      destruct (gi_on _ _ GI p v us X1 X3) as [Hv _]. destruct (gi_on _ _ GI p' v' us' Y1 Y3) as [Hv' _].
      destruct (part_disjoint v v' i i' v0 Hv Hv' X4 Y4) as [<- <-].
      destruct (dget_Some_key _ nat_eqb_ok _ _ Hv) as [wx Dw]. exists v, wx, us, us', i. split; [assumption|].
      split; [apply (on_path g W _ _ _ _ GI Dw); eauto|]. split; [apply (on_path g W _ _ _ _ GI Dw); eauto|]. auto.
    - intros [v [wx [us [us' [i [D [T [T' [N N']]]]]]]]].
      apply (on_path g W _ _ _ _ GI D) in T as [p [A [B C]]]. apply (on_path g W _ _ _ _ GI D) in T' as [p' [A' [B' C']]].
      destruct (gi_on _ _ GI p v us A C) as [Hv _].
      assert (Lu : length us = length (part v)).
      { destruct (Forall2_In_r _ _ _ _ (jo_paths _ _ _ _ _ _ J) A) as [q [_ [_ [_ Q]]]]. apply Q. assumption. }
      assert (exists v0, nth_error (part v) i = Some v0) as [v0 Nv].
      { destruct (nth_error (part v) i) eqn:E; [eauto|]. apply nth_error_None in E. assert (i < length us) by (apply nth_error_Some; congruence). lia. }
      destruct (proj2 (path_corr sg v0 t)) as [p0 [X1 [X2 X3]]]; [exists p, v, us, i; auto|].
      destruct (proj2 (path_corr sg' v0 t')) as [p0' [Y1 [Y2 Y3]]]; [exists p', v, us', i; auto|].
      destruct (dget_Some_key _ nat_eqb_ok _ _ (part_in v v0 i Hv Nv)) as [vx Dx]. exists v0, vx, [t], [t'], 0. split; [assumption|].
      split; [apply (on_path g0 W0 _ _ _ _ GI0 Dx); eauto|]. split; [apply (on_path g0 W0 _ _ _ _ GI0 Dx); eauto|]. auto.
  Qed.

  Lemma path_app : forall h n k a b c, path_len h n a b -> path_len h k b c -> path_len h (n + k) a c.
  Proof.
    intros h n k a b c P Q. revert P. induction Q as [b|k b x y Q IH E]; intro P; [rewrite Nat.add_0_r; assumption|].
    rewrite Nat.add_succ_r. apply pl_snoc with x; auto.
  Qed.

  Lemma part_path : forall v i a, In v (vertices g) -> nth_error (part v) i = Some a -> path_len g0 i v a.
  Proof.
    intros v i. induction i as [|i IH]; intros a Hv A; [rewrite (part_0 v Hv) in A; injection A as <-; constructor|].
    destruct (part_nth v (S i) i Hv) as [x X]; [lia|apply nth_error_Some; congruence|].
    apply pl_snoc with x; [apply IH; assumption|]. apply link_edge. eapply part_link; eassumption.
  Qed.

  (** Paths do not get longer. *)
  Lemma path_back : forall n v, path_len g n v_start v -> In v (vertices g) -> exists n', n <= n' /\ path_len g0 n' v_start v.
  Proof.
    pose proof (jo_graph _ _ _ _ _ _ J) as GI. intros n v P. remember v_start as s eqn:Es in P.
    induction P as [s|n s u v P IH E]; intros Hv; subst; [exists 0; split; [lia|constructor]|].
    pose proof (graph_edge_verts g W u v GI E) as [Hu _]. destruct (IH eq_refl Hu) as [n' [L Q]].
    destruct (jo_head _ _ _ _ _ _ J u Hu) as [r Er]. assert (NE : part u <> []) by (rewrite Er; discriminate).
    pose proof (part_path u _ _ Hu (last_nth (part u) u NE)) as Pu.
    exists (S (n' + (length (part u) - 1))). split; [lia|]. apply pl_snoc with (last (part u) u); [apply path_app with u; assumption|].
    apply (jo_edges _ _ _ _ _ _ J u v Hu). assumption.
  Qed.
End Parts.
