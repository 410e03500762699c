(** Identical witnesses give a single path. *)
From Verif Require Import Py TokenModel SuffixModel IndexModel GraphModel AlignModel TableModel NearModel ExportModel CollateModel
  Lib GraphSpec GraphProof MergeProof RankProof AlignProof BlockProof SuffixProof FindProof IndexProof BlockText InstProof CubeProof
  AlignerProof CollateProof TableSpec TableProof CollateSpec JoinProof TopoProof ResultProof ErrorProof FactsProof OutputProof StageProof PlainProof NearProof NearTwoProof
  WalkSpec WalkProof WalkAlign WalkStage.
From Coq Require Import Permutation Relations QArith.
Open Scope list_scope.
Open Scope nat_scope.

(** ** Walks that reach the highest possible score *)
Section Diagonal.
  Variable M : nat -> nat -> bool.
  Fixpoint count (m0 : move) (ms : list move) : nat :=
    match ms with
    | [] => 0
    | m :: r => (match m0, m with Pair, Pair | Omit, Omit | Add, Add => 1 | _, _ => 0 end) + count m0 r
    end.
  Lemma count_app : forall m0 a b, count m0 (a ++ b) = count m0 a + count m0 b.
  Proof. induction a as [|m a IH]; intros b; cbn [app count]; [reflexivity|]. rewrite IH. lia. Qed.
  Lemma walk_counts : forall ms, at_rank (walk M ms) = count Pair ms + count Omit ms /\ at_token (walk M ms) = count Pair ms + count Add ms /\
    (points (walk M ms) + Z.of_nat (count Omit ms) <= Z.of_nat (at_token (walk M ms)))%Z.
  Proof.
    induction ms as [|m ms [A [B C]]] using rev_ind; [cbn; lia|]. rewrite walk_snoc, !count_app.
    destruct m; cbn [count step at_rank at_token points is_hit]; repeat destruct (M _ _); cbn [andb]; lia.
  Qed.
  Lemma all_pairs : forall ms, count Omit ms = 0 -> count Add ms = 0 -> ms = repeat Pair (length ms).
  Proof.
    induction ms as [|m ms IH]; intros A B; [reflexivity|]. destruct m; cbn [count] in A, B; try lia. cbn [length repeat]. f_equal. apply IH; lia.
  Qed.
  Lemma repeat_snoc : forall {A} (a : A) n, repeat a (S n) = repeat a n ++ [a].
  Proof. induction n as [|n IH]; [reflexivity|]. cbn [repeat app] in *. rewrite IH. reflexivity. Qed.
  Lemma diag_at : forall n, at_rank (walk M (repeat Pair n)) = n /\ at_token (walk M (repeat Pair n)) = n.
  Proof. induction n as [|n [A B]]; [split; reflexivity|]. rewrite repeat_snoc, walk_snoc. cbn [step at_rank at_token]. lia. Qed.
  Lemma diag_points : forall n, (forall i, 1 <= i <= n -> M i i = true) ->
    points (walk M (repeat Pair n)) = Z.of_nat n /\ met (walk M (repeat Pair n)) = map (fun i => (i, i)) (seq 1 n).
  Proof.
    induction n as [|n IH]; intros H; [split; reflexivity|]. destruct IH as [A B]; [intros; apply H; lia|].
    destruct (diag_at n) as [R T]. rewrite repeat_snoc, walk_snoc. unfold step. cbn [is_hit points met]. rewrite R, T, (H (S n)) by lia.
    rewrite A, B. split; [lia|]. rewrite seq_S, map_app. reflexivity.
  Qed.
  Lemma best_diag : forall n ms, at_rank (walk M ms) = n -> at_token (walk M ms) = n -> (Z.of_nat n <= points (walk M ms))%Z -> ms = repeat Pair n.
  Proof.
    intros n ms A B C. destruct (walk_counts ms) as [R [T P]].
    assert (O : count Omit ms = 0) by lia. assert (D : count Add ms = 0) by lia.
    pose proof (all_pairs ms O D) as E. rewrite E in A. destruct (diag_at (length ms)) as [A' _]. rewrite A' in A. rewrite E, A. reflexivity.
  Qed.
End Diagonal.

(** ** Single paths *)
Lemma pairs_app : forall {A} (l1 l2 : list A) x, pairs (l1 ++ x :: l2) = pairs (l1 ++ [x]) ++ pairs (x :: l2).
Proof.
  induction l1 as [|a l1 IH]; intros l2 x; [reflexivity|]. destruct l1 as [|b l1].
  - cbn [app]. unfold pairs. cbn [tl combine app]. reflexivity.
  - cbn [app] in *. unfold pairs in *. cbn [tl combine app] in *. f_equal. apply IH.
Qed.
Lemma pairs_nth : forall {A} (l : list A) i x y, nth_error l i = Some x -> nth_error l (S i) = Some y -> In (x, y) (pairs l).
Proof.
  induction l as [|a l IH]; intros i x y H1 H2; [destruct i; discriminate|]. destruct l as [|b l]; [destruct i as [|[|i]]; discriminate|].
  destruct i as [|i]; cbn [nth_error] in H1, H2.
  - injection H1 as <-. injection H2 as <-. left. reflexivity.
  - right. apply (IH i); assumption.
Qed.
Lemma pairs_nth_inv : forall {A} (l : list A) x y, In (x, y) (pairs l) -> exists i, nth_error l i = Some x /\ nth_error l (S i) = Some y.
Proof.
  induction l as [|a l IH]; intros x y H; [destruct H|]. destruct l as [|b l]; [destruct H|].
  destruct H as [H|H].
  - injection H as <- <-. exists 0. split; reflexivity.
  - destruct (IH x y H) as [i [A1 A2]]. exists (S i). split; assumption.
Qed.

(** Chains in a graph without branches are equal. *)
Lemma det_chain : forall (E : vid -> vid -> Prop) e, (forall u w w', E u w -> E u w' -> w = w') ->
  forall x y a, (forall u v, In (u, v) (pairs (a :: x ++ [e])) -> E u v) -> (forall u v, In (u, v) (pairs (a :: y ++ [e])) -> E u v) ->
    ~ In e x -> ~ In e y -> x = y.
Proof.
  intros E e DET. induction x as [|b x IH]; intros y a HX HY NX NY.
  - destruct y as [|d y]; [reflexivity|]. exfalso. apply NY. left. apply (DET a); [apply HY; left; reflexivity|apply HX; left; reflexivity].
  - destruct y as [|d y].
    + exfalso. apply NX. left. apply (DET a); [apply HX; left; reflexivity|apply HY; left; reflexivity].
    + assert (b = d) by (apply (DET a); [apply HX; left; reflexivity|apply HY; left; reflexivity]). subst d. f_equal.
      apply (IH y b); [intros; apply HX; right; assumption|intros; apply HY; right; assumption| |]; intros Q; [apply NX|apply NY]; right; assumption.
Qed.

Lemma chain_end : forall g W wp, graph_of g W -> In wp W -> ~ In v_end (map fst (snd wp)).
Proof.
  intros g W wp GI Hw Q. pose proof (gi_simple _ _ GI wp Hw) as ND. unfold chain in ND. inversion ND as [|? ? _ ND2]; subst.
  apply NoDup_app_iff in ND2 as [_ [_ ND2]]. apply (ND2 v_end Q). left. reflexivity.
Qed.

Lemma det_single : forall g W, graph_of g W -> W <> [] -> (forall u w w', edge g u w -> edge g u w' -> w = w') ->
  exists p, single_path g p /\ forall wp, In wp W -> map fst (snd wp) = p.
Proof.
  intros g W GI NE DET.
  assert (MP : made_of_paths g W) by (apply graph_made_of_paths; [assumption|rewrite (graph_of_near _ _ GI); assumption]).
  destruct W as [|wp0 W]; [congruence|]. exists (map fst (snd wp0)).
  assert (ALL : forall wp, In wp (wp0 :: W) -> map fst (snd wp) = map fst (snd wp0)).
  { intros wp Hw. apply (det_chain (edge g) v_end DET _ _ v_start).
    - intros u v Q. apply (mp_edges _ _ MP). exists wp. split; assumption.
    - intros u v Q. apply (mp_edges _ _ MP). exists wp0. split; [left; reflexivity|assumption].
    - apply (chain_end g _ wp GI Hw).
    - apply (chain_end g _ wp0 GI). left. reflexivity. }
  assert (CH : forall wp, In wp (wp0 :: W) -> chain wp = v_start :: map fst (snd wp0) ++ [v_end]).
  { intros wp Hw. unfold chain. rewrite (ALL wp Hw). reflexivity. }
  split; [|assumption]. split; [apply (mp_simple _ _ MP wp0); left; reflexivity|]. split.
  - intros v. rewrite (mp_verts _ _ MP). split.
    + intros [->|[->|[wp [Hw Q]]]]; [left; reflexivity|right; apply in_or_app; right; left; reflexivity|]. rewrite (CH wp Hw) in Q. assumption.
    + intros Q. right. right. exists wp0. split; [left; reflexivity|assumption].
  - intros u v. rewrite (mp_edges _ _ MP). split.
    + intros [wp [Hw Q]]. rewrite (CH wp Hw) in Q. assumption.
    + intros Q. exists wp0. split; [left; reflexivity|assumption].
Qed.

Lemma single_det : forall g p u w w', single_path g p -> edge g u w -> edge g u w' -> w = w'.
Proof. intros g p u w w' [ND [_ E]] H1 H2. apply E in H1, H2. symmetry. eapply pairs_succ; eassumption. Qed.

Lemma single_paths : forall g p W, single_path g p -> graph_of g W -> forall wp, In wp W -> map fst (snd wp) = p.
Proof.
  intros g p W LI GI wp Hw. assert (NE : W <> []) by (destruct W; [destruct Hw|discriminate]).
  assert (MP : made_of_paths g W) by (apply graph_made_of_paths; [assumption|rewrite (graph_of_near _ _ GI); assumption]).
  destruct LI as [ND [V E]]. apply (det_chain (edge g) v_end (fun u w w' => single_det g p u w w' (conj ND (conj V E))) _ _ v_start).
  - intros u v Q. apply (mp_edges _ _ MP). exists wp. split; assumption.
  - intros u v Q. apply E. assumption.
  - apply (chain_end g _ wp GI Hw).
  - inversion ND as [|? ? _ ND2]; subst. apply NoDup_app_iff in ND2 as [_ [_ ND2]]. intros Q. apply (ND2 v_end Q). left. reflexivity.
Qed.

Lemma paths_single : forall g p W, graph_of g W -> W <> [] -> (forall wp, In wp W -> map fst (snd wp) = p) -> single_path g p.
Proof.
  intros g p W GI NE ALL.
  assert (MP : made_of_paths g W) by (apply graph_made_of_paths; [assumption|rewrite (graph_of_near _ _ GI); assumption]).
  assert (CH : forall wp, In wp W -> chain wp = v_start :: p ++ [v_end]) by (intros wp Hw; unfold chain; rewrite (ALL wp Hw); reflexivity).
  destruct W as [|wp0 W]; [congruence|]. assert (H0 : In wp0 (wp0 :: W)) by (left; reflexivity).
  split; [rewrite <- (CH wp0 H0); apply (mp_simple _ _ MP wp0 H0)|]. split.
  - intros v. rewrite (mp_verts _ _ MP). split.
    + intros [->|[->|[wp [Hw Q]]]]; [left; reflexivity|right; apply in_or_app; right; left; reflexivity|]. rewrite (CH wp Hw) in Q. assumption.
    + intros Q. right. right. exists wp0. split; [assumption|]. rewrite (CH wp0 H0). assumption.
  - intros u v. rewrite (mp_edges _ _ MP). split.
    + intros [wp [Hw Q]]. rewrite (CH wp Hw) in Q. assumption.
    + intros Q. exists wp0. split; [assumption|]. rewrite (CH wp0 H0). assumption.
Qed.

(** Ranks on a single path count its vertices. *)
Lemma single_rank : forall g p rk, single_path g p -> longest_from_start g rk ->
  forall i v, nth_error (v_start :: p ++ [v_end]) i = Some v -> rk v = i.
Proof.
  intros g p rk [ND [V E]] LG. set (L := v_start :: p ++ [v_end]) in *.
  assert (UP : forall i v, nth_error L i = Some v -> path_len g i v_start v).
  { induction i as [|i IH]; intros v Q; [injection Q as <-; constructor|].
    destruct (nth_error_lt_ex L i) as [u U]; [apply Nat.lt_trans with (S i); [lia|apply nth_error_Some; congruence]|].
    apply pl_snoc with u; [apply IH; assumption|]. apply E. eapply pairs_nth; eassumption. }
  assert (EX : forall n v, path_len g n v_start v -> nth_error L n = Some v).
  { intros n v H. remember v_start as s eqn:Es in H. induction H as [|n u v w H IH Ed]; [subst; reflexivity|].
    specialize (IH Es). apply E in Ed. apply pairs_nth_inv in Ed as [j [J1 J2]].
    assert (j = n) by (eapply (proj1 (NoDup_nth_error L)); eauto; [apply nth_error_Some; congruence|congruence]). subst. assumption. }
  intros i v Q. assert (Hv : In v (vertices g)) by (apply V; apply nth_error_In in Q; assumption).
  destruct (LG v Hv) as [A _]. apply EX in A. eapply (proj1 (NoDup_nth_error L)); [assumption|apply nth_error_Some; congruence|congruence].
Qed.

(** ** One step *)
Lemma ident_step : forall filt g rk W ts p path M ms, filt = None -> single_path g p -> graph_of g W -> W <> [] ->
  longest_from_start g rk -> length p = length ts ->
  (forall wp, In wp W -> exists ts', snd wp = steps ts' p /\ length ts' = length p /\ map tk_str ts' = map tk_str ts) ->
  optimal_step filt g rk W ts path M ms -> path = p.
Proof.
  intros filt g rk W ts p path M ms Hf SP GI NE LG LP HW OS. pose proof (single_rank g p rk SP LG) as RK. pose proof SP as [ND [V E]].
  set (n := length ts) in *.
  assert (REnd : rk v_end = S n).
  { apply RK. cbn [nth_error]. rewrite nth_error_app2 by lia. rewrite LP, Nat.sub_diag. reflexivity. }
  assert (RP : forall i v, nth_error p i = Some v -> rk v = S i).
  { intros i v Q. apply RK. cbn [nth_error]. rewrite nth_error_app1; [assumption|]. apply nth_error_Some. congruence. }
  destruct OS as [OL OSn OC OR OT OB OA OM _].
  assert (DG : forall i, 1 <= i <= n -> M i i = true).
  { intros i Hi. destruct (nth_error_lt_ex ts (i - 1)) as [t Ht]; [unfold n in *; lia|]. destruct (nth_error_lt_ex p (i - 1)) as [v Hv]; [lia|].
    apply (OC Hf i i t v); auto; [lia| | |].
    - apply V. right. apply in_or_app. left. apply nth_error_In in Hv. assumption.
    - rewrite (RP _ _ Hv). lia.
    - destruct W as [|wp W]; [congruence|]. destruct (HW wp (or_introl eq_refl)) as [ts' [S1 [S2 S3]]].
      destruct (nth_error_lt_ex ts' (i - 1)) as [t' Ht']; [lia|]. exists wp, t'. split; [left; reflexivity|]. split.
      + rewrite S1. apply steps_nth; [lia|]. eauto.
      + assert (Q : nth_error (map tk_str ts') (i - 1) = nth_error (map tk_str ts) (i - 1)) by congruence.
        rewrite (map_nth_error _ _ _ Ht), (map_nth_error _ _ _ Ht') in Q. congruence. }
  destruct (diag_points M n DG) as [DP DM]. destruct (diag_at M n) as [DR DT].
  assert (MS : ms = repeat Pair n).
  { apply (best_diag M); [lia|assumption|]. rewrite <- DP. apply OB; lia. }
  subst ms. rewrite DM in OM.
  assert (NX : forall i, nth_error path i = nth_error p i).
  { intros i. destruct (le_lt_dec n i) as [Hi|Hi].
    - rewrite !(proj2 (nth_error_None _ _)); [reflexivity| |]; unfold n in *; lia.
    - destruct (OM (S i) (S i)) as [y' [v [t [t' [A1 [A2 [A3 [A4 [A5 [A6 _]]]]]]]]]].
      + apply in_map_iff. exists (S i). split; [reflexivity|]. apply in_seq. lia.
      + apply in_map_iff in A2 as [j [Ej _]]. injection Ej as <- Ej. subst j. replace (S i - 1) with i in A3 by lia. rewrite A3. symmetry.
        destruct (nth_error_lt_ex p i) as [v' Hv']; [lia|]. rewrite Hv'. f_equal.
        pose proof (RP _ _ Hv') as R'.
        apply V in A4. apply In_nth_error in A4 as [k Hk]. pose proof (RK k v Hk) as Rk. replace k with (S i) in Hk by lia.
        cbn [nth_error] in Hk. rewrite nth_error_app1 in Hk by lia. congruence. }
  clear - NX. revert path NX. induction p as [|a p IH]; intros [|b path] H; [reflexivity|specialize (H 0); discriminate..|].
  pose proof (H 0) as H0. injection H0 as ->. f_equal. apply IH. intros i. apply (H (S i)).
Qed.

(** ** All witnesses *)
Lemma ident_wits : forall c ti ss iw, index_ok c ti -> all_read c ss -> In iw (ti_wits ti) -> map tk_str (iw_toks iw) = ss.
Proof.
  intros c ti ss iw IX AR Hiw. rewrite (ix_wits _ _ IX) in Hiw.
  assert (G : forall c pos, In iw (stamped pos c) -> exists w p, In w c /\ iw_toks iw = stamp (w_sigil w) p (w_toks w)).
  { clear. induction c as [|w c IH]; intros pos H; [destruct H|]. cbn [stamped] in H. destruct H as [<-|H].
    - exists w, pos. split; [left; reflexivity|reflexivity].
    - destruct (IH _ H) as [w' [p [A B]]]. exists w', p. split; [right; assumption|assumption]. }
  destruct (G _ _ Hiw) as [w [p [A B]]]. rewrite B, <- (AR w A).
  clear. revert p. induction (w_toks w) as [|t ts IH]; intros q; [reflexivity|]. cbn [stamp map]. f_equal. apply IH.
Qed.

Lemma ident_stage : forall topo c ss k g, topo_ok topo -> good_sigla c -> all_read c ss -> stage topo None c k = Ok g ->
  exists p, single_path g p /\ length p = length ss.
Proof.
  intros topo c ss k g TO [ND NE] AR H. unfold stage in H. apply bind_ok in H as [ti [P H]].
  pose proof (prepare_index_ok c ti ND P) as IX. pose proof (prepare_text_ok c ti P) as TX.
  destruct (ti_wits ti) as [|iw0 rest] eqn:E; [discriminate|]. apply bind_ok in H as [st0 [F H]]. apply bind_ok in H as [st' [A H]]. injection H as <-.
  destruct (first_step_inv c ti None IX NE iw0 rest E) as [st1 [p [F1 F2]]]. rewrite F1 in F. injection F as <-.
  assert (I0 : map tk_str (iw_toks iw0) = ss) by (apply (ident_wits c ti); auto; rewrite E; left; reflexivity).
  assert (LT : forall iw, In iw (ti_wits ti) -> length (iw_toks iw) = length ss).
  { intros iw Hi. rewrite <- (ident_wits c ti ss iw IX AR Hi), map_length. reflexivity. }
  assert (PL : exists p0, length p0 = length ss /\ steps (iw_toks iw0) p = steps (iw_toks iw0) p0).
  { pose proof (al_paths _ _ _ _ _ F2) as FP. inversion FP as [|? ? ? ? [_ [p0 [L0 E0]]] _]; subst. cbn [snd] in E0.
    exists p0. split; [rewrite L0, map_length; reflexivity|assumption]. }
  destruct PL as [p0 [L0 E0]].
  assert (G : forall k rest done st W st', ti_wits ti = done ++ rest -> W <> [] -> al_inv None ti done st W ->
    (forall wp, In wp W -> exists ts', snd wp = steps ts' p0 /\ length ts' = length p0 /\ map tk_str ts' = ss) ->
    foldM (next_step topo None false ti) (firstn k rest) st = Ok st' -> single_path (a_graph st') p0).
  { clear - IX TX NE TO AR L0 LT.
    assert (SING : forall done st W, W <> [] -> al_inv None ti done st W ->
      (forall wp, In wp W -> exists ts', snd wp = steps ts' p0 /\ length ts' = length p0 /\ map tk_str ts' = ss) -> single_path (a_graph st) p0).
    { intros done st W NW AL HW. apply (paths_single _ _ W (al_graph _ _ _ _ _ AL) NW). intros wp Hw. destruct (HW wp Hw) as [ts' [S1 [S2 _]]].
      rewrite S1. apply steps_fst. congruence. }
    induction k as [|k IH]; intros rest done st W st' DW NW AL HW H.
    - cbn in H. injection H as <-. apply (SING done st W); assumption.
    - destruct rest as [|iw rest].
      + cbn in H. injection H as <-. apply (SING done st W); assumption.
      + cbn [firstn foldM] in H. apply bind_ok in H as [st1 [H1 H2]].
        destruct (step_optimal c ti None IX TX NE topo TO done iw rest st W st1 DW NW AL H1) as [rk [mm [l [path [M [ms [RO [AL' OS]]]]]]]].
        pose proof (al_graph _ _ _ _ _ AL) as GI.
        assert (Hiw : In iw (ti_wits ti)) by (rewrite DW; apply in_or_app; right; left; reflexivity).
        assert (path = p0).
        { apply (ident_step None (a_graph st) rk W (iw_toks iw) p0 path M ms eq_refl (SING _ _ _ NW AL HW) GI NW (longest _ W rk mm l GI RO NW)).
          - rewrite L0. symmetry. apply LT. assumption.
          - intros wp Hw. rewrite (ident_wits c ti ss iw IX AR Hiw). apply HW. assumption.
          - assumption. }
        subst path. replace (done ++ iw :: rest) with ((done ++ [iw]) ++ rest) in DW by (rewrite <- app_assoc; reflexivity).
        apply (IH rest (done ++ [iw]) st1 _ st' DW) in AL'; [assumption|destruct W; discriminate| |assumption].
        intros wp Hw. apply in_app_or in Hw as [Hw|[<-|[]]]; [apply HW; assumption|]. exists (iw_toks iw). split; [reflexivity|].
        split; [rewrite L0; apply LT; assumption|apply (ident_wits c ti); assumption]. }
  exists p0. split; [|assumption]. refine (G k rest [iw0] st1 _ st' E _ F2 _ A); [discriminate|].
  intros wp [<-|[]]. exists (iw_toks iw0). cbn [snd]. split; [assumption|]. split; [rewrite L0; apply LT; rewrite E; left; reflexivity|assumption].
Qed.

(** ** Near matching has nothing to do where no edge skips a rank *)
Lemma foldM_idle : forall {A S} (f : S -> A -> res S) l s, (forall a, In a l -> f s a = Ok s) -> foldM f l s = Ok s.
Proof. induction l as [|a l IH]; intros s H; [reflexivity|]. cbn [foldM]. rewrite (H a) by (left; reflexivity). cbn [bind]. apply IH. intros; apply H; right; assumption. Qed.

Lemma near_idle : forall topo ratio g W rk m l, topo_ok topo -> graph_of g W -> rank_ok g rk m l ->
  (forall u v, edge g u v -> rk v = S (rk u)) ->
  perform_near_match topo ratio g (ranking_for rk m l) = (r <- ranking_of topo g ;; Ok (g, r)).
Proof.
  intros topo ratio g W rk m l TO GI RO TI. destruct (ranking_spec topo g W TO GI) as [rk' [m' [l' [T [R _]]]]].
  unfold perform_near_match. rewrite T. cbn [bind]. rewrite foldM_idle; [cbn [bind]; rewrite R; reflexivity|].
  intros v _. cbn [fst]. apply foldM_idle. intros [[a b] lb] Hi. apply in_edges_iff in Hi as [Hi E]. cbn [fst snd] in E. subst b.
  unfold near_edge_step.
  assert (EE : edge g a v) by (apply edge_In; eauto). destruct (graph_edge_verts g W a v GI EE) as [Ha Hv].
  unfold dgetE. rewrite (by_vertex_get g rk m l v RO Hv), (by_vertex_get g rk m l a RO Ha). cbn [bind]. rewrite (TI _ _ EE).
  replace (1 <? Z.of_nat (S (rk a)) - Z.of_nat (rk a))%Z with false; [reflexivity|]. symmetry. apply Z.ltb_ge. lia.
Qed.

(** ** The graph *)
Section Ident.
  Variables (cc : cclass) (topo : graph -> res (list vid)) (ratio : str -> str -> Q).
  Hypothesis TO : topo_ok topo.

  Lemma ident_base : forall c ss ti g b, good_sigla c -> all_read c ss -> aligner_collate topo None b c = Ok (ti, g) ->
    exists p, single_path g p /\ length p = length ss.
  Proof.
    intros c ss ti g b G AR H. apply (ident_stage topo c ss (length c) g TO G AR). apply (stage_last topo None c ti).
    destruct b; [|assumption]. unfold aligner_collate in *. apply bind_ok in H as [ti' [P H]]. apply bind_ok in H as [st [A H]].
    rewrite P. cbn [bind]. rewrite (align_all_detect _ _ _ _ A). exact H.
  Qed.

  Lemma single_tight : forall g W p rk m l, graph_of g W -> W <> [] -> rank_ok g rk m l -> single_path g p ->
    (forall i v, nth_error (v_start :: p ++ [v_end]) i = Some v -> rk v = i) /\ (forall u v, edge g u v -> rk v = S (rk u)) /\ m = length p + 2.
  Proof.
    intros g W p rk m l GI NW RO SP. pose proof (single_rank g p rk SP (longest g W rk m l GI RO NW)) as RK. split; [assumption|]. split.
    - intros u v E. apply SP in E. apply pairs_nth_inv in E as [i [A B]]. rewrite (RK _ _ A), (RK _ _ B). reflexivity.
    - pose proof (rank_end_max g W rk m l GI RO NW) as Q. rewrite (RK (S (length p)) v_end) in Q; [lia|].
      cbn [nth_error]. rewrite nth_error_app2 by lia. rewrite Nat.sub_diag. reflexivity.
  Qed.

  (** Segmentation joins a single path into one vertex. *)
  Lemma single_join : forall g0 W0 g W part p0, joined cc g0 W0 g W part -> graph_of g0 W0 -> W0 <> [] -> single_path g0 p0 -> p0 <> [] ->
    (forall u w, In u (vertices g) -> ~ joinable g u w) -> exists v, single_path g [v].
  Proof.
    intros g0 W0 g W part p0 J GI0 NW0 SP0 NP MX. pose proof (jo_graph _ _ _ _ _ _ J) as GI.
    assert (NW : W <> []) by (intros ->; pose proof (jo_paths _ _ _ _ _ _ J) as F; apply NW0; inversion F; reflexivity).
    destruct (det_single g W GI NW) as [p [SP ALL]].
    { intros u w w' E1 E2. destruct (graph_edge_verts g W u w GI E1) as [Hu _].
      apply (jo_edges _ _ _ _ _ _ J u w Hu) in E1. apply (jo_edges _ _ _ _ _ _ J u w' Hu) in E2. eapply single_det; eassumption. }
    destruct p as [|v [|v' p]]; [exfalso|eauto|exfalso].
    - destruct W as [|wp W]; [congruence|]. pose proof (jo_paths _ _ _ _ _ _ J) as F. inversion F as [|wp0 ? W0x ? [F1 [F2 _]] F3 Q1 Q2]; subst W0.
      pose proof (ALL wp (or_introl eq_refl)) as A. destruct (snd wp); [|discriminate]. cbn in F2.
      pose proof (single_paths g0 p0 _ SP0 GI0 wp0 (or_introl eq_refl)) as B. rewrite F2 in B. cbn in B. congruence.
    - destruct SP as [ND [V E]]. apply (MX v v'); [apply V; right; left; reflexivity|].
      set (L := v_start :: (v :: v' :: p) ++ [v_end]) in *.
      assert (PV : In (v, v') (pairs L)) by (right; left; reflexivity).
      split; [intros ->; inversion ND as [|? ? N1 _]; apply N1; left; reflexivity|]. split.
      + intros ->. unfold L in ND. cbn [app] in ND. inversion ND as [|? ? _ N2]; inversion N2 as [|? ? _ N3]; inversion N3 as [|? ? N4 _].
        apply N4. apply in_or_app. right. left. reflexivity.
      + split.
        * intros w. rewrite E. split; [intros Q; symmetry; eapply pairs_succ; eassumption|intros ->; assumption].
        * intros u. rewrite E. split; [intros Q; symmetry; eapply pairs_pred; eassumption|intros ->; assumption].
  Qed.

  Theorem ident_graph : forall c o ss g r, good_sigla c -> all_read c ss -> ss <> [] -> o_filter o = None ->
    collate_graph cc topo ratio c o = Ok (g, r) ->
    exists p W rk m l, single_path g p /\ graph_of g W /\ Forall2 carries c W /\ W <> [] /\ rank_ok g rk m l /\ r = ranking_for rk m l /\
      (o_segmentation o = false -> length p = length ss /\ one_token W) /\ (o_segmentation o = true -> exists v, p = [v]).
  Proof.
    intros c o ss g r G AR NS Hf H. pose proof G as [ND NE]. unfold collate_graph in H. rewrite Hf in H. apply bind_ok in H as [[ti g1] [H1 H]].
    destruct (o_astar o); [discriminate|]. destruct (ident_base c ss ti g1 _ G AR H1) as [p0 [SP0 L0]].
    destruct (aligner_spec _ _ _ _ _ _ TO ND NE H1) as [IX [TX [st [W0 [E [AL [NW CA]]]]]]]. subst g1.
    pose proof (al_graph _ _ _ _ _ AL) as GI. pose proof (one_token_paths _ _ (al_paths _ _ _ _ _ AL)) as ONE.
    destruct (ranking_spec topo (a_graph st) W0 TO GI) as [rk [m [l [_ [R1 RO]]]]]. rewrite R1 in H. cbn [bind] in H.
    destruct (single_tight _ _ _ _ _ _ GI NW RO SP0) as [RK [TI MM]].
    assert (X : (if o_near o then if o_segmentation o then Raise SegmentationError else perform_near_match topo ratio (a_graph st) (ranking_for rk m l)
        else Ok (a_graph st, ranking_for rk m l)) = Ok (a_graph st, ranking_for rk m l) \/
        (if o_near o then if o_segmentation o then Raise SegmentationError else perform_near_match topo ratio (a_graph st) (ranking_for rk m l)
        else Ok (a_graph st, ranking_for rk m l)) = Raise SegmentationError).
    { destruct (o_near o); [|left; reflexivity]. destruct (o_segmentation o); [right; reflexivity|left].
      rewrite (near_idle topo ratio _ W0 rk m l TO GI RO TI), R1. reflexivity. }
    destruct X as [X|X]; rewrite X in H; [|discriminate]. cbn [bind] in H. destruct (o_segmentation o).
    - apply bind_ok in H as [g' [J1 H]]. apply bind_ok in H as [r' [J2 H]]. injection H as <- <-.
      destruct (join_spec cc (a_graph st) W0 GI ONE) as [g2 [W [part [J3 [J4 J5]]]]]. rewrite J1 in J3. injection J3 as <-.
      pose proof (jo_graph _ _ _ _ _ _ J4) as GI'. destruct (ranking_spec topo g' W TO GI') as [rk' [m' [l' [_ [R1' R2']]]]]. rewrite R1' in J2. injection J2 as <-.
      destruct (single_join _ _ _ _ _ p0 J4 GI NW SP0) as [v SP]; [intros ->; destruct ss; [congruence|discriminate]|assumption|].
      exists [v], W, rk', m', l'. split; [assumption|]. split; [assumption|]. split; [apply (joined_carries _ _ _ _ _ _ _ J4 CA)|].
      split; [intros ->; pose proof (jo_paths _ _ _ _ _ _ J4) as F; apply NW; inversion F; reflexivity|].
      split; [assumption|]. split; [reflexivity|]. split; [discriminate|eauto].
    - injection H as <- <-. exists p0, W0, rk, m, l. do 6 (split; [first [assumption|reflexivity]|]). split; [auto|discriminate].
  Qed.
End Ident.

(** ** The table of a single path *)
Lemma filter_map_snd : forall {A B} (f : B -> bool) (l : list (A * B)), map snd (filter (fun kv => f (snd kv)) l) = filter f (map snd l).
Proof. induction l as [|[a b] l IH]; [reflexivity|]. cbn [filter map snd]. destruct (f b); cbn [map snd]; rewrite IH; reflexivity. Qed.
Lemma filter_all : forall {A} (f : A -> bool) l, (forall a, In a l -> f a = true) -> filter f l = l.
Proof. induction l as [|a l IH]; intros H; [reflexivity|]. cbn [filter]. rewrite (H a) by (left; reflexivity). f_equal. apply IH. intros; apply H; right; assumption. Qed.

Lemma single_inner : forall g p v, single_path g p -> In v p -> inner v = true.
Proof.
  intros g p v [ND _] Hv. apply inner_iff. inversion ND as [|? ? N1 N2]; subst. split; intros ->.
  - apply N1. apply in_or_app. left. assumption.
  - apply NoDup_app_iff in N2 as [_ [_ N2]]. apply (N2 v_end Hv). left. reflexivity.
Qed.

Lemma single_by_rank : forall g W p rk m l, graph_of g W -> W <> [] -> rank_ok g rk m l -> single_path g p ->
  map snd (filter (fun kv => existsb inner (snd kv)) (by_rank (ranking_for rk m l))) = map (fun v => [v]) p.
Proof.
  intros g W p rk m l GI NW RO SP. destruct (single_tight g W p rk m l GI NW RO SP) as [RK [_ MM]].
  assert (E : map snd (by_rank (ranking_for rk m l)) = map (fun v => [v]) (v_start :: p ++ [v_end])).
  { unfold ranking_for. cbn [by_rank]. rewrite map_map. cbn [snd].
    set (L := v_start :: p ++ [v_end]) in *. assert (LL : length L = m) by (unfold L; cbn [length]; rewrite app_length; cbn [length]; lia).
    assert (NX : forall k v, nth_error L k = Some v -> filter (fun u => rk u =? k) l = [v]).
    { intros k v Hk. assert (NDl : NoDup l) by (eapply Permutation_NoDup; [apply Permutation_sym; apply (ro_perm _ _ _ _ RO)|apply (gi_verts _ _ GI)]).
      assert (U : forall u, In u (filter (fun u => rk u =? k) l) <-> u = v).
      { intros u. rewrite filter_In, Nat.eqb_eq. split.
        - intros [A B]. apply (Permutation_in _ (ro_perm _ _ _ _ RO)) in A. apply SP in A. apply In_nth_error in A as [j Hj].
          rewrite (RK _ _ Hj) in B. subst j. fold L in Hj. congruence.
        - intros ->. split; [|apply RK; assumption]. apply (Permutation_in _ (Permutation_sym (ro_perm _ _ _ _ RO))). apply SP. apply nth_error_In in Hk. assumption. }
      assert (N : NoDup (filter (fun u => rk u =? k) l)) by (apply NoDup_filter; assumption).
      destruct (filter (fun u => rk u =? k) l) as [|a [|b r]].
      - exfalso. apply (U v). reflexivity.
      - f_equal. apply U. left. reflexivity.
      - exfalso. assert (a = v) by (apply U; left; reflexivity). assert (b = v) by (apply U; right; left; reflexivity). subst.
        inversion N as [|? ? N1 _]. apply N1. left. reflexivity. }
    clearbody L. rewrite <- LL. clear - NX.
    assert (G : forall L s, (forall k v, nth_error L k = Some v -> filter (fun u => rk u =? s + k) l = [v]) ->
      map (fun k => filter (fun u => rk u =? k) l) (seq s (length L)) = map (fun v => [v]) L).
    { clear. induction L as [|a L IH]; intros s H; [reflexivity|]. cbn [length seq map]. f_equal.
      - rewrite <- (H 0 a eq_refl), Nat.add_0_r. reflexivity.
      - apply IH. intros k v Hk. rewrite <- (H (S k) v Hk). rewrite Nat.add_succ_r. reflexivity. }
    apply (G L 0). exact NX. }
  rewrite filter_map_snd, E. rewrite map_cons, map_app. cbn [map filter existsb]. rewrite filter_app.
  assert (I1 : inner v_start = false) by reflexivity. assert (I2 : inner v_end = false) by reflexivity.
  cbn [filter existsb]. rewrite I1, I2. cbn [orb]. rewrite app_nil_r. apply filter_all.
  intros x Hx. apply in_map_iff in Hx as [v [<- Hv]]. cbn [existsb]. rewrite (single_inner g p v SP Hv). reflexivity.
Qed.

Lemma single_table : forall g W p rk m l sigla, graph_of g W -> W <> [] -> rank_ok g rk m l -> single_path g p -> sigla = map fst W ->
  exists t, construct_table sigla g (ranking_for rk m l) = Ok t /\ length (t_columns t) = length p /\
    (forall col, In col (t_columns t) -> c_variant col = false) /\
    Forall2 (fun wp ro => r_header ro = fst wp /\ r_cells ro = map (fun s => Some (snd s)) (snd wp)) W (t_rows t).
Proof.
  intros g W p rk m l sigla GI NW RO SP ->.
  assert (GN : graph_of (without_near g) W) by (rewrite (graph_of_near _ _ GI); assumption).
  assert (RI : ranks_in (vertices g) (ranking_for rk m l)).
  { intros k vs Hi v Hv. destruct (ranks_vs g W rk m l GI RO k vs Hi) as [_ B]. apply B in Hv. tauto. }
  exists (wtable W (map fst W) (ranking_for rk m l)). split; [apply (table_weak g W GN _ _ RI)|].
  pose proof (single_by_rank g W p rk m l GI NW RO SP) as BR.
  assert (COLS : t_columns (wtable W (map fst W) (ranking_for rk m l)) = map (fun v => wcol W (length (map fst W)) [v]) p).
  { unfold wtable. cbn [t_columns]. rewrite <- (map_map (fun v : vid => [v]) (wcol W (length (map fst W)))), <- BR, map_map. reflexivity. }
  assert (ALL : forall wp, In wp W -> map fst (snd wp) = p) by (apply (single_paths g p W SP GI)).
  assert (CELLS : forall v, put_tokens [] (flat_map (tokens_on W) [v]) = tokens_on W v).
  { intros v. cbn [flat_map]. rewrite app_nil_r. apply (put_tokens_new (tokens_on W v) []). cbn [app]. apply (tokens_on_NoDup g W GI). }
  split; [rewrite COLS, map_length; reflexivity|]. split.
  - rewrite COLS. intros col Hc. apply in_map_iff in Hc as [v [<- Hv]]. unfold wcol. cbn [c_variant length]. rewrite CELLS. cbn [Nat.ltb Nat.leb orb].
    assert (LN : length (tokens_on W v) = length W).
    { clear - ALL Hv. induction W as [|wp W' IH]; [reflexivity|]. unfold tokens_on in *. cbn [flat_map]. rewrite app_length, IH by (intros; apply ALL; right; assumption).
      assert (K : In v (map fst (snd wp))) by (rewrite (ALL wp (or_introl eq_refl)); assumption).
      destruct (dget_Some_key _ nat_eqb_ok v (snd wp) K) as [ts ->]. reflexivity. }
    rewrite LN, map_length, Nat.eqb_refl. reflexivity.
  - unfold wtable at 1. cbn [t_rows]. fold (t_columns (wtable W (map fst W) (ranking_for rk m l))).
    change (map (fun kv : nat * list vid => wcol W (length (map fst W)) (snd kv)) (filter (fun k : nat * list vid => existsb inner (snd k)) (by_rank (ranking_for rk m l))))
      with (t_columns (wtable W (map fst W) (ranking_for rk m l))). rewrite COLS.
    rewrite map_map. set (COL := map _ p).
    assert (G : forall W', incl W' W -> Forall2 (fun (wp : wpath) ro => r_header ro = fst wp /\ r_cells ro = map (fun s => Some (snd s)) (snd wp)) W'
      (map (fun wp => construct_row COL (fst wp)) W')).
    { induction W' as [|wp W' IH]; intros I; constructor; [|apply IH; intros x Hx; apply I; right; assumption].
      split; [reflexivity|]. cbn [construct_row r_cells]. unfold COL. rewrite map_map.
      assert (Hw : In wp W) by (apply I; left; reflexivity).
      assert (NDp : NoDup (map fst (snd wp))) by (apply (path_uniq g W GI wp Hw)).
      rewrite <- (ALL wp Hw), map_map. apply map_ext_in. intros [v ts] Hs. cbn [fst snd wcol c_cells]. rewrite CELLS.
      apply (In_dget _ str_eqb_ok); [apply (tokens_on_NoDup g W GI)|]. apply tokens_on_In. exists wp. split; [assumption|]. split; [reflexivity|].
      apply (In_dget _ nat_eqb_ok); assumption. }
    apply G. apply incl_refl.
Qed.

Section IdentTable.
  Variables (cc : cclass) (topo : graph -> res (list vid)) (ratio : str -> str -> Q).
  Hypothesis TO : topo_ok topo.

  Lemma ident_nonempty : forall c o ss x, all_read c ss -> collate_graph cc topo ratio c o = Ok x -> ss <> [].
  Proof.
    intros c o ss [g r] AR H ->. pose proof (collate_nonempty cc topo ratio c o g r H) as NC.
    destruct c as [|w c]; [congruence|]. pose proof (AR w (or_introl eq_refl)) as E.
    assert (Hw : w_toks w = []) by (destruct (w_toks w); [reflexivity|discriminate]).
    unfold collate_graph in H. apply bind_ok in H as [[ti g1] [H _]]. destruct (o_astar o); [discriminate|].
    unfold aligner_collate in H. apply bind_ok in H as [ti' [P _]]. rewrite (prepare_empty (w :: c)) in P; [discriminate|]. left. assumption.
  Qed.

  Theorem ident_table : forall c o ss t, good_sigla c -> all_read c ss -> o_filter o = None ->
    collate cc topo ratio c o = Ok (OTable t) ->
    (forall col, In col (t_columns t) -> c_variant col = false) /\
    (o_segmentation o = false -> length (t_columns t) = length ss /\
       Forall2 (fun w ro => r_header ro = w_sigil w /\
         Forall2 (fun t0 cell => exists t, cell = Some [t] /\ came_from (w_sigil w) t0 t) (w_toks w) (r_cells ro)) c (t_rows t)) /\
    (o_segmentation o = true -> length (t_columns t) = 1 /\
       Forall2 (fun w ro => r_header ro = w_sigil w /\
         exists ts, r_cells ro = [Some ts] /\ Forall2 (came_from (w_sigil w)) (w_toks w) ts) c (t_rows t)).
  Proof.
    intros c o ss t G AR Hf H. destruct (collate_table_inv cc topo ratio c o t H) as [g [r [H1 H2]]].
    destruct (ident_graph cc topo ratio TO c o ss g r G AR (ident_nonempty c o ss _ AR H1) Hf H1) as [p [W [rk [m [l [SP [GI [CA [NW [RO [-> [S0 S1]]]]]]]]]]]].
    destruct (single_table g W p rk m l (map w_sigil c) GI NW RO SP (eq_sym (carries_sigla c W CA))) as [t' [T1 [T2 [T3 T4]]]].
    rewrite T1 in H2. injection H2 as ->. split; [assumption|]. split.
    - intros Hs. destruct (S0 Hs) as [L ONE]. split; [congruence|]. clear - CA T4 ONE.
      revert T4 ONE. generalize (t_rows t). induction CA as [|w wp c W [C1 C2] CA IH]; intros rows T4 ONE; inversion T4 as [|? ro ? rows' [A B] T5]; subst; constructor.
      + split; [congruence|]. rewrite B.
        assert (O : forall v ts, In (v, ts) (snd wp) -> length ts = 1) by (intros v ts Q; apply (ONE wp v ts); [left; reflexivity|assumption]).
        clear - C2 O. revert C2 O. generalize (w_toks w). induction (snd wp) as [|[v ts] s IH]; intros T C2 O; cbn [flat_map map snd] in *.
        * inversion C2; subst. constructor.
        * assert (L : length ts = 1) by (apply (O v); left; reflexivity). destruct ts as [|tk [|? ?]]; try discriminate. cbn [app] in C2.
          inversion C2; subst. constructor; [eauto|]. apply IH; [assumption|]. intros v0 ts0 Q. apply (O v0). right. assumption.
      + apply IH; [assumption|]. intros q v ts Hq. apply ONE. right. assumption.
    - intros Hs. destruct (S1 Hs) as [v ->]. split; [assumption|].
      pose proof (single_paths g [v] W SP GI) as ALL. clear - CA T4 ALL.
      revert T4 ALL. generalize (t_rows t). induction CA as [|w wp c W [C1 C2] CA IH]; intros rows T4 ALL; inversion T4 as [|? ro ? rows' [A B] T5]; subst; constructor.
      + split; [congruence|]. pose proof (ALL wp (or_introl eq_refl)) as E. destruct (snd wp) as [|[v' ts] [|? ?]]; try discriminate.
        cbn [map snd] in B. exists ts. split; [assumption|]. cbn [flat_map snd] in C2. rewrite app_nil_r in C2. assumption.
      + apply IH; [assumption|]. intros q Hq. apply ALL. right. assumption.
  Qed.
End IdentTable.
