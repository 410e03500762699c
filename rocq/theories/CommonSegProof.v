(** Common endings and beginnings with segmentation. *)
From Verif Require Import Py Lib TokenModel SuffixModel IndexModel GraphModel AlignModel TableModel NearModel ExportModel CollateModel GraphSpec CollateSpec
  GraphProof MergeProof RankProof TableSpec AlignProof JoinProof AlignerProof CollateProof StageProof ResultProof FactsProof NearProof NearTwoProof IdentProof TableProof SegSpec SegProof
  CommonSpec CommonProof.
Open Scope list_scope.
Open Scope nat_scope.

Lemma suffix_of : forall {A} (l1 a l2 b : list A), l1 ++ a = l2 ++ b -> length b <= length a -> exists y, a = y ++ b.
Proof.
  induction l1 as [|x l1 IH]; intros a l2 b E L; [exists l2; exact E|]. destruct l2 as [|y l2].
  - cbn [app] in E. exfalso. apply (f_equal (@length A)) in E. cbn [length] in E. rewrite app_length in E. lia.
  - injection E as -> E. apply (IH a l2 b E L).
Qed.
Lemma prefix_of : forall {A} (a l1 b l2 : list A), a ++ l1 = b ++ l2 -> length b <= length a -> exists y, a = b ++ y.
Proof.
  induction a as [|x a IH]; intros l1 b l2 E L; destruct b as [|y b]; [exists []; reflexivity|cbn in L; lia|exists (x :: a); reflexivity|].
  injection E as -> E. destruct (IH l1 b l2 E) as [z ->]; [cbn in L; lia|]. exists z. reflexivity.
Qed.

Section Seg.
  Variables (cc : cclass) (g0 : graph) (W0 : list wpath) (g : graph) (W : list wpath) (part : vid -> list vid).
  Hypothesis GI0 : graph_of g0 W0.
  Hypothesis NW0 : W0 <> [].
  Hypothesis J : joined cc g0 W0 g W part.
  Hypothesis MX : forall u w, In u (vertices g) -> ~ joinable g u w.
  Variables (rk0 : vid -> nat) (m0 : nat) (l0 : list vid).
  Hypothesis RO0 : rank_ok g0 rk0 m0 l0.

  Let disjoint := part_disjoint cc g0 W0 g W part J rk0 m0 l0 RO0.

  Lemma in_some_part : forall a, In a (vertices g0) -> a <> v_start -> a <> v_end -> exists v i, In v (vertices g) /\ nth_error (part v) i = Some a.
  Proof.
    intros a Ha N1 N2. destruct (gi_cover _ _ GI0 a Ha) as [->|[->|[p0 [ts [H1 H2]]]]]; [congruence|congruence|].
    destruct (one_token_each cc g0 W0 g W part J p0 a ts H1 H2) as [t ->].
    destruct (proj1 (path_corr cc g0 W0 g W part J (fst p0) a t)) as [p [v [us [i [A1 [A2 [A3 [A4 A5]]]]]]]]; [eauto|].
    exists v, i. split; [|assumption]. apply (gi_on _ _ (jo_graph _ _ _ _ _ _ J) p v us A1 A3).
  Qed.

  Lemma join_keeps : forall a b, joinable g0 a b -> exists v i, In v (vertices g) /\ nth_error (part v) i = Some a /\ nth_error (part v) (S i) = Some b.
  Proof.
    intros a b JO. pose proof JO as [NS [NE [SU PR]]]. assert (E : edge g0 a b) by (apply SU; reflexivity).
    destruct (graph_edge_verts g0 W0 a b GI0 E) as [Va Vb].
    assert (Na : a <> v_end).
    { intros ->. apply (graph_edge_path g0 W0 _ _ GI0) in E as [p [Hp Q]]. apply pairs_In in Q as [x [y Q]]. pose proof (gi_simple _ _ GI0 p Hp) as N.
      unfold chain in Q, N. rewrite app_comm_cons in Q, N.
      assert (X : v_start :: map fst (snd p) = x /\ [] = b :: y) by (apply (app_inj_NoDup v_end); assumption). destruct X; discriminate. }
    assert (Nb : b <> v_start). { intros ->. pose proof (ro_edge _ _ _ _ RO0 _ _ E). rewrite (rank_start g0 W0 rk0 m0 l0 GI0 RO0) in H. lia. }
    destruct (in_some_part a Va NS Na) as [v [i [Hv Pa]]]. exists v, i. split; [assumption|]. split; [assumption|].
    destruct (nth_error (part v) (S i)) as [x|] eqn:Px.
    - pose proof (part_link cc g0 W0 g W part J v i a x Hv Pa Px) as [_ [_ [S2 _]]]. f_equal. apply SU. apply S2. reflexivity.
    - exfalso. apply nth_error_None in Px. assert (Li : i < length (part v)) by (apply nth_error_Some; congruence).
      assert (NP : part v <> []) by (destruct (part v); [cbn in Li; lia|discriminate]).
      pose proof (last_nth (part v) v NP) as LN. replace (length (part v) - 1) with i in LN by lia. rewrite Pa in LN. injection LN as LN.
      destruct (in_some_part b Vb Nb NE) as [w [j [Hw Pb]]].
      destruct j as [|j].
      + rewrite (part_0 cc g0 W0 g W part J w Hw) in Pb. injection Pb as ->.
        apply (MX v b Hv). split; [|split; [assumption|split]].
        * intros ->. rewrite (proj1 (jo_ends _ _ _ _ _ _ J)) in LN. cbn in LN. congruence.
        * intros w. rewrite (jo_edges _ _ _ _ _ _ J v w Hv), <- LN. apply SU.
        * intros x. split.
          -- intros Ex. pose proof (graph_edge_verts g W x b (jo_graph _ _ _ _ _ _ J) Ex) as [Hx _]. apply (jo_edges _ _ _ _ _ _ J x b Hx) in Ex.
             apply PR in Ex. destruct (jo_head _ _ _ _ _ _ J x Hx) as [rx Erx]. assert (NX : part x <> []) by (rewrite Erx; discriminate).
             pose proof (last_nth (part x) x NX) as LX. rewrite Ex in LX. apply (disjoint x v _ i a Hx Hv LX Pa).
          -- intros ->. apply (jo_edges _ _ _ _ _ _ J v b Hv). rewrite <- LN. assumption.
      + destruct (nth_error_lt_ex (part w) j) as [x X]; [assert (S j < length (part w)) by (apply nth_error_Some; congruence); lia|].
        pose proof (part_link cc g0 W0 g W part J w j x b Hw X Pb) as LK. pose proof (link_edge g0 _ _ LK) as Ex. apply PR in Ex. subst x.
        destruct (disjoint v w i j a Hv Hw Pa X) as [Q1 Q2]. rewrite Q1, Q2 in Px. assert (S j < length (part w)) by (apply nth_error_Some; congruence). lia.
  Qed.

  Variables (h e : bool) (vs : list vid) (u : list str).
  Hypothesis AN : all_anchored h e W0 vs u.
  Hypothesis LV : length vs = length u.
  Hypothesis NV : vs <> [].

  Lemma anchor_pairs : forall wp i a b, In wp W0 -> nth_error vs i = Some a -> nth_error vs (S i) = Some b -> In (a, b) (pairs (chain wp)).
  Proof.
    intros wp i a b Hw A B. destruct (AN wp Hw) as [ts [path [E [L [p1 [p2 [? [? [E1 _]]]]]]]]].
    unfold chain. rewrite E, steps_fst, E1 by assumption.
    rewrite <- !app_assoc. change (v_start :: p1 ++ vs ++ p2 ++ [v_end]) with ((v_start :: p1) ++ vs ++ p2 ++ [v_end]).
    apply (pairs_nth _ (length (v_start :: p1) + i)); [|rewrite <- Nat.add_succ_r]; rewrite nth_app_r, nth_error_app1 by (apply nth_error_Some; congruence); assumption.
  Qed.

  Lemma anchor_joinable : forall i a b, nth_error vs i = Some a -> nth_error vs (S i) = Some b -> joinable g0 a b.
  Proof.
    intros i a b A B. pose proof (anchor_vertex g0 W0 rk0 m0 l0 GI0 NW0 RO0 h e vs u AN LV) as AV.
    destruct (AV _ _ A) as [_ [N1 [N1' _]]]. destruct (AV _ _ B) as [_ [N2' [N2 _]]].
    split; [assumption|]. split; [assumption|].
    assert (E : edge g0 a b). { apply (graph_edge_path g0 W0 a b GI0). exists (hd ([], []) W0). split; [apply hd_In; assumption|]. apply (anchor_pairs _ i); [apply hd_In|..]; assumption. }
    split.
    - intros w. split; [|intros ->; assumption]. intros Ew. apply (graph_edge_path g0 W0 a w GI0) in Ew as [p [Hp Q]].
      eapply pairs_succ; [apply (gi_simple _ _ GI0 p Hp)|apply (anchor_pairs p i); eassumption|eassumption].
    - intros w. split; [|intros ->; assumption]. intros Ew. apply (graph_edge_path g0 W0 w b GI0) in Ew as [p [Hp Q]].
      eapply pairs_pred; [apply (gi_simple _ _ GI0 p Hp)|apply (anchor_pairs p i); eassumption|eassumption].
  Qed.

  Lemma anchor_part : exists v i, In v (vertices g) /\ forall j x, nth_error vs j = Some x -> nth_error (part v) (i + j) = Some x.
  Proof.
    assert (exists a, nth_error vs 0 = Some a) as [a A] by (destruct vs; [congruence|eexists; reflexivity]).
    destruct (anchor_vertex g0 W0 rk0 m0 l0 GI0 NW0 RO0 h e vs u AN LV _ _ A) as [Va [N1 [N2 _]]].
    destruct (in_some_part a Va N1 N2) as [v [i [Hv P]]]. exists v, i. split; [assumption|].
    induction j as [|j IH]; intros x X; [rewrite Nat.add_0_r; congruence|].
    destruct (nth_error_lt_ex vs j) as [y Y]; [assert (S j < length vs) by (apply nth_error_Some; congruence); lia|].
    destruct (join_keeps y x) as [v' [i' [Hv' [P1 P2]]]]; [eapply anchor_joinable; eassumption|].
    destruct (disjoint v v' (i + j) i' y Hv Hv' (IH y Y) P1) as [-> <-]. rewrite Nat.add_succ_r. assumption.
  Qed.

  Lemma unfold_app : forall s1 s2, unfold_path part (s1 ++ s2) = unfold_path part s1 ++ unfold_path part s2.
  Proof. intros. unfold unfold_path. apply flat_map_app. Qed.
  Lemma unfold_one : forall v ts, unfold_path part [(v, ts)] = steps ts (part v).
  Proof. intros. unfold unfold_path. cbn [flat_map]. apply app_nil_r. Qed.
  Lemma steps_inj : forall ts p ts' p', length p = length ts -> length p' = length ts' -> steps ts p = steps ts' p' -> ts = ts' /\ p = p'.
  Proof.
    intros ts p ts' p' L L' E. split; [rewrite <- (steps_tokens ts p L), <- (steps_tokens ts' p' L'); congruence|].
    rewrite <- (steps_fst ts p L), <- (steps_fst ts' p' L'). congruence.
  Qed.

  (** The tokens and vertices of an unfolded path. *)
  Lemma unfold_steps : forall s, (forall v ts, In (v, ts) s -> length ts = length (part v)) ->
    unfold_path part s = steps (flat_map snd s) (flat_map (fun x => part (fst x)) s) /\ length (flat_map (fun x => part (fst x)) s) = length (flat_map snd s).
  Proof.
    induction s as [|[v ts] s IH]; intros H; [split; reflexivity|]. destruct IH as [A B]; [intros; apply H; right; assumption|].
    pose proof (H v ts (or_introl eq_refl)) as L. change ((v, ts) :: s) with ([(v, ts)] ++ s). rewrite unfold_app, unfold_one, A. cbn [app flat_map fst snd].
    split; [|rewrite !app_length; lia]. unfold steps. rewrite map_app.
    assert (C : forall {X Y} (a1 a2 : list X) (b1 b2 : list Y), length a1 = length b1 -> combine (a1 ++ a2) (b1 ++ b2) = combine a1 b1 ++ combine a2 b2).
    { clear. induction a1 as [|x a1 IH]; intros a2 [|y b1] b2 L; try discriminate; [reflexivity|]. cbn [app combine]. f_equal. apply IH. injection L as L. assumption. }
    symmetry. apply C. rewrite map_length. lia.
  Qed.

  Lemma seg_path : forall wp, In wp W -> exists ts path, length path = length ts /\ anchored h e ts path vs u /\
    ts = flat_map snd (snd wp) /\ path = flat_map (fun x => part (fst x)) (snd wp).
  Proof.
    intros wp Hw. destruct (Forall2_In_r _ _ _ _ (jo_paths _ _ _ _ _ _ J) Hw) as [p0 [P1 [P2 [P3 P4]]]].
    destruct (AN p0 P1) as [ts [path [E [L A]]]]. destruct (unfold_steps (snd wp) P4) as [U1 U2]. rewrite P3, U1 in E.
    destruct (steps_inj _ _ _ _ U2 L E) as [E1 E2]. exists ts, path. auto.
  Qed.

  Lemma seg_len : forall wp v ts, In wp W -> In (v, ts) (snd wp) -> length ts = length (part v).
  Proof. intros wp v ts Hw. destruct (Forall2_In_r _ _ _ _ (jo_paths _ _ _ _ _ _ J) Hw) as [p0 [P1 [P2 [P3 P4]]]]. apply P4. Qed.

  Lemma seg_end : e = true -> exists v, In v (vertices g) /\ forall wp, In wp W -> exists pre ts y, snd wp = pre ++ [(v, ts)] /\ map tk_str ts = y ++ u.
  Proof.
    intros He. destruct anchor_part as [v [i [Hv P]]]. exists v. split; [assumption|]. intros wp Hw. destruct (seg_path wp Hw) as [ts [path [L [A [E1 E2]]]]].
    destruct A as [p1 [p2 [s1 [s2 [A1 [A2 [A3 [_ A4]]]]]]]]. specialize (A4 He). subst p2. rewrite app_nil_r in A1.
    assert (s2 = []).
    { apply length_zero_iff_nil. apply (f_equal (@length _)) in A2. rewrite map_length, !app_length in A2. rewrite A1, app_length in L. lia. }
    subst s2. rewrite app_nil_r in A2.
    assert (NS : snd wp <> []). { intros Q. rewrite Q in E2. cbn in E2. rewrite E2 in A1. destruct p1; [destruct vs; [congruence|discriminate]|discriminate]. }
    destruct (exists_last NS) as [sr [[v' ts'] Es]]. rewrite Es in E1, E2. rewrite flat_map_app in E1, E2. cbn [flat_map fst snd] in E1, E2. rewrite app_nil_r in E1, E2.
    assert (I : In (v', ts') (snd wp)) by (rewrite Es; apply in_or_app; right; left; reflexivity).
    pose proof (seg_len wp v' ts' Hw I) as Lt. destruct (gi_on _ _ (jo_graph _ _ _ _ _ _ J) wp v' ts' Hw I) as [Hv' NT].
    assert (LP : 1 <= length (part v')) by (destruct ts'; [congruence|cbn in Lt; lia]).
    assert (L1 : 1 <= length vs) by (destruct vs; [congruence|cbn; lia]).
    destruct (nth_error_lt_ex vs (length vs - 1)) as [z Z]; [lia|].
    assert (Z1 : nth_error path (length path - 1) = Some z).
    { rewrite A1, app_length, nth_error_app2 by lia. rewrite <- Z. f_equal. lia. }
    assert (Z2 : nth_error (part v') (length (part v') - 1) = Some z).
    { rewrite <- Z1, E2, app_length, nth_error_app2 by lia. f_equal. lia. }
    destruct (disjoint v v' _ _ z Hv Hv' (P _ _ Z) Z2) as [-> Q].
    exists sr, ts'. rewrite E1, map_app in A2. destruct (suffix_of _ _ _ _ A2) as [y Y]; [rewrite map_length; lia|]. exists y. auto.
  Qed.

  Lemma seg_start : h = true -> exists v, In v (vertices g) /\ forall wp, In wp W -> exists post ts y, snd wp = (v, ts) :: post /\ map tk_str ts = u ++ y.
  Proof.
    intros He. destruct anchor_part as [v [i [Hv P]]]. exists v. split; [assumption|]. intros wp Hw. destruct (seg_path wp Hw) as [ts [path [L [A [E1 E2]]]]].
    destruct A as [p1 [p2 [s1 [s2 [A1 [A2 [A3 [A4 _]]]]]]]]. specialize (A4 He). subst p1. destruct s1; [|discriminate]. cbn [app] in A1, A2.
    destruct (snd wp) as [|[v' ts'] sr] eqn:Es; [exfalso; cbn in E2; rewrite E2 in A1; destruct vs; [congruence|discriminate]|].
    cbn [flat_map fst snd] in E1, E2.
    assert (I : In (v', ts') (snd wp)) by (rewrite Es; left; reflexivity).
    pose proof (seg_len wp v' ts' Hw I) as Lt. destruct (gi_on _ _ (jo_graph _ _ _ _ _ _ J) wp v' ts' Hw I) as [Hv' NT].
    assert (LP : 1 <= length (part v')) by (destruct ts'; [congruence|cbn in Lt; lia]).
    assert (L1 : 1 <= length vs) by (destruct vs; [congruence|cbn; lia]).
    destruct (nth_error_lt_ex vs 0) as [z Z]; [lia|].
    assert (Z1 : nth_error path 0 = Some z) by (rewrite A1, nth_error_app1 by lia; assumption).
    assert (Z2 : nth_error (part v') 0 = Some z) by (rewrite <- Z1, E2, nth_error_app1 by lia; reflexivity).
    destruct (disjoint v v' _ _ z Hv Hv' (P _ _ Z) Z2) as [-> Q]. assert (i = 0) by lia. subst i.
    destruct (nth_error_lt_ex vs (length vs - 1)) as [z' Z']; [lia|]. pose proof (P _ _ Z') as Q2.
    assert (LL : length vs - 1 < length (part v')) by (apply nth_error_Some; cbn in Q2; congruence).
    exists sr, ts'. rewrite E1, map_app in A2. destruct (prefix_of _ _ _ _ A2) as [y Y]; [rewrite map_length; lia|]. exists y. auto.
  Qed.

  (** The columns *)
  Variables (rk : vid -> nat) (m : nat) (l : list vid).
  Hypothesis RO : rank_ok g rk m l.

  Lemma seg_nonempty : W <> [].
  Proof.
    pose proof (jo_paths _ _ _ _ _ _ J) as F. pose proof NW0 as N. intros E. rewrite E in F. inversion F as [Q|]. symmetry in Q. exact (N Q).
  Qed.

  Lemma seg_end_column : e = true -> 1 <= m - 2 /\ agreed_segment (the_table W rk m l (map fst W)) (m - 2 - 1) (fun ws => exists y, ws = y ++ u).
  Proof.
    intros He. destruct (seg_end He) as [v [Hv P]]. pose proof (jo_graph _ _ _ _ _ _ J) as GI. pose proof seg_nonempty as NW.
    assert (T : forall wp, In wp W -> exists pre, map fst (snd wp) = pre ++ [v]).
    { intros wp Hw. destruct (P wp Hw) as [pre [ts [y [E _]]]]. exists (map fst pre). rewrite E, map_app. reflexivity. }
    pose proof (tail_at g W rk m l GI NW RO [v] T 0 v eq_refl) as TA. pose proof (tail_only g W rk m l GI NW RO [v] T) as TU. cbn [length] in TA, TU.
    pose proof (rank_end_max g W rk m l GI RO NW) as RM.
    assert (ON : forall wp, In wp W -> In v (map fst (snd wp))) by (intros wp Hw; destruct (T wp Hw) as [pre ->]; apply in_or_app; right; left; reflexivity).
    assert (R1 : 1 <= rk v).
    { destruct (rk v) eqn:R; [|lia]. apply (rank_zero g W rk m l GI RO NW v Hv) in R. subst v. exfalso. pose proof (hd_In W NW) as Hw.
      pose proof (gi_simple _ _ GI _ Hw) as N. unfold chain in N. inversion N as [|? ? N1 _]. apply N1. apply in_or_app. left. apply ON. assumption. }
    split; [lia|]. destruct (unique_column g W rk m l v GI NW RO ON) as [col [C1 [C2 C3]]]; [lia|assumption| |].
    - intros w Hw Rw. assert (NE : w <> v_end) by (intros ->; lia). pose proof (TU w Hw NE ltac:(lia)) as Q. rewrite Rw in Q. replace (rk v + 1 - rk v_end) with 0 in Q by lia. cbn in Q. congruence.
    - replace (m - 2 - 1) with (rk v - 1) by lia. exists col. split; [assumption|]. split; [assumption|]. intros r Hr. destruct (C3 r Hr) as [wp [ts [Hw [Ht E]]]].
      exists ts. split; [assumption|]. destruct (P wp Hw) as [pre [ts' [y [E1 E2]]]]. exists y. rewrite <- E2. f_equal.
      assert (ND : NoDup (map fst (snd wp))). { pose proof (gi_simple _ _ GI _ Hw) as N. unfold chain in N. inversion N as [|? ? _ N2]. apply NoDup_app_iff in N2. tauto. }
      assert (D1 : dget Nat.eqb v (snd wp) = Some ts) by (apply (In_dget _ nat_eqb_ok); assumption).
      assert (D2 : dget Nat.eqb v (snd wp) = Some ts') by (apply (In_dget _ nat_eqb_ok); [assumption|rewrite E1; apply in_or_app; right; left; reflexivity]). congruence.
  Qed.

  Lemma seg_start_column : h = true -> agreed_segment (the_table W rk m l (map fst W)) 0 (fun ws => exists y, ws = u ++ y).
  Proof.
    intros He. destruct (seg_start He) as [v [Hv P]]. pose proof (jo_graph _ _ _ _ _ _ J) as GI. pose proof seg_nonempty as NW.
    assert (T : forall wp, In wp W -> exists post, map fst (snd wp) = [v] ++ post).
    { intros wp Hw. destruct (P wp Hw) as [post [ts [y [E _]]]]. exists (map fst post). rewrite E. reflexivity. }
    pose proof (head_rank g W rk m l GI NW RO [v] T 1 v eq_refl) as TA. pose proof (head_only g W rk m l GI NW RO [v] T) as TU. cbn [length] in TU.
    assert (ON : forall wp, In wp W -> In v (map fst (snd wp))) by (intros wp Hw; destruct (T wp Hw) as [pre ->]; left; reflexivity).
    assert (NE : v <> v_end) by (intros ->; apply (chain_end g W _ GI (hd_In W NW)); apply ON, hd_In; assumption).
    destruct (unique_column g W rk m l v GI NW RO ON) as [col [C1 [C2 C3]]]; [|assumption| |].
    - pose proof (rank_le_end g W rk m l GI RO NW v Hv NE). lia.
    - intros w Hw Rw. pose proof (TU w Hw ltac:(lia)) as Q. rewrite Rw, TA in Q. cbn in Q. congruence.
    - rewrite TA in C1, C3. exists col. split; [assumption|]. split; [assumption|]. intros r Hr. destruct (C3 r Hr) as [wp [ts [Hw [Ht E]]]].
      exists ts. split; [assumption|]. destruct (P wp Hw) as [post [ts' [y [E1 E2]]]]. exists y. rewrite <- E2. f_equal.
      assert (ND : NoDup (map fst (snd wp))). { pose proof (gi_simple _ _ GI _ Hw) as N. unfold chain in N. inversion N as [|? ? _ N2]. apply NoDup_app_iff in N2. tauto. }
      assert (D1 : dget Nat.eqb v (snd wp) = Some ts) by (apply (In_dget _ nat_eqb_ok); assumption).
      assert (D2 : dget Nat.eqb v (snd wp) = Some ts') by (apply (In_dget _ nat_eqb_ok); [assumption|rewrite E1; left; reflexivity]). congruence.
  Qed.
End Seg.
