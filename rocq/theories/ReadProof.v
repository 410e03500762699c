(** Proofs about a witness that can be read in the graph. *)
From Verif Require Import Py Lib TokenModel SuffixModel IndexModel GraphModel AlignModel TableModel NearModel ExportModel
  CollateModel GraphSpec CollateSpec TableSpec GraphProof AlignerProof RankProof CollateProof IndexProof StageProof WalkSpec WalkProof WalkAlign WalkStage IdentProof NearProof TableProof MergeProof BlockText CubeProof PairProof ReadSpec.
From Coq Require Import Relations Sorted.
Open Scope list_scope.
Open Scope nat_scope.

Lemma Forall2_nth_error : forall {A B} (R : A -> B -> Prop) l1 l2, Forall2 R l1 l2 -> forall i a b, nth_error l1 i = Some a -> nth_error l2 i = Some b -> R a b.
Proof.
  intros A B R l1 l2 F. induction F as [|x y l1 l2 H F IH]; intros i a b H1 H2; destruct i as [|i]; try discriminate; cbn in H1, H2.
  - congruence.
  - apply (IH i); assumption.
Qed.

(** ** Walks *)
Section Walks.
  Variable M : nat -> nat -> bool.

  Lemma walk_snoc : forall ms m, walk M (ms ++ [m]) = step M (walk M ms) m.
  Proof. intros. unfold walk. rewrite fold_left_app. reflexivity. Qed.

  (** No walk has more points than two for every token less one for every rank, and a walk with this number of points
      matches every token, in ascending ranks. *)
  Lemma walk_bound : forall ms, (points (walk M ms) <= 2 * Z.of_nat (at_token (walk M ms)) - Z.of_nat (at_rank (walk M ms)))%Z.
  Proof.
    intros ms. induction ms as [|m ms IH] using rev_ind; [cbn; lia|]. rewrite walk_snoc. unfold step. cbn [points at_token at_rank].
    destruct m; cbn [is_hit]; repeat match goal with |- context [if ?b then _ else _] => destruct b end; lia.
  Qed.

  Lemma walk_full : forall ms, points (walk M ms) = (2 * Z.of_nat (at_token (walk M ms)) - Z.of_nat (at_rank (walk M ms)))%Z ->
    (forall y x, In (y, x) (met (walk M ms)) -> 1 <= y <= at_token (walk M ms) /\ 1 <= x <= at_rank (walk M ms)) /\
    (forall y, 1 <= y <= at_token (walk M ms) -> exists x, In (y, x) (met (walk M ms))) /\
    (forall y x y' x', In (y, x) (met (walk M ms)) -> In (y', x') (met (walk M ms)) -> y < y' -> x < x') /\
    (forall y x x', In (y, x) (met (walk M ms)) -> In (y, x') (met (walk M ms)) -> x = x').
  Proof.
    intros ms. induction ms as [|m ms IH] using rev_ind.
    { intros _. cbn. repeat split; intros; try contradiction; lia. }
    rewrite walk_snoc. pose proof (walk_bound ms) as B. unfold step. cbn [points at_token at_rank met].
    destruct m; cbn [is_hit].
    - destruct (M (S (at_token (walk M ms))) (S (at_rank (walk M ms)))) eqn:E; [|lia]. intros P.
      destruct IH as [I1 [I2 [I3 I4]]]; [lia|]. split; [|split; [|split]].
      + intros y x H. apply in_app_or in H as [H|[H|[]]]; [destruct (I1 y x H); lia|injection H as <- <-; lia].
      + intros y H. destruct (Nat.eq_dec y (S (at_token (walk M ms)))) as [->|N].
        * eexists. apply in_or_app. right. left. reflexivity.
        * destruct (I2 y) as [x Hx]; [lia|]. exists x. apply in_or_app. left. assumption.
      + intros y x y' x' H H' L. apply in_app_or in H as [H|[H|[]]]; apply in_app_or in H' as [H'|[H'|[]]].
        * apply (I3 y x y' x'); assumption.
        * injection H' as <- <-. destruct (I1 y x H). lia.
        * injection H as <- <-. destruct (I1 y' x' H'). lia.
        * injection H as <- <-. injection H' as <- <-. lia.
      + intros y x x' H H'. apply in_app_or in H as [H|[H|[]]]; apply in_app_or in H' as [H'|[H'|[]]].
        * apply (I4 y); assumption.
        * injection H' as <- <-. destruct (I1 _ _ H). lia.
        * injection H as <- <-. destruct (I1 _ _ H'). lia.
        * injection H as <- <-. injection H' as <-. reflexivity.
    - intros P. destruct IH as [I1 [I2 [I3 I4]]]; [lia|]. split; [|split; [|split]]; auto.
      intros y x H. destruct (I1 y x H). lia.
    - intros P. exfalso. destruct (M (S (at_token (walk M ms)) - 1) (at_rank (walk M ms)) && M (S (at_token (walk M ms))) (at_rank (walk M ms))); lia.
  Qed.

  Lemma walk_omits : forall d ms, at_rank (walk M (ms ++ repeat Omit d)) = at_rank (walk M ms) + d /\
    at_token (walk M (ms ++ repeat Omit d)) = at_token (walk M ms) /\ points (walk M (ms ++ repeat Omit d)) = (points (walk M ms) - Z.of_nat d)%Z.
  Proof.
    induction d as [|d IH]; intros ms; cbn [repeat]; [rewrite app_nil_r; lia|].
    replace (ms ++ Omit :: repeat Omit d) with ((ms ++ [Omit]) ++ repeat Omit d) by (rewrite <- app_assoc; reflexivity).
    destruct (IH (ms ++ [Omit])) as [A [B C]]. rewrite A, B, C, walk_snoc. cbn [step at_rank at_token points is_hit]. lia.
  Qed.

  (** A walk that matches token i at the i-th of some ascending ranks. *)
  Lemma walk_exists : forall xs m, (forall i x, nth_error xs i = Some x -> 1 <= x <= m /\ M (S i) x = true) ->
    (forall i x x', nth_error xs i = Some x -> nth_error xs (S i) = Some x' -> x < x') ->
    exists ms, at_rank (walk M ms) = m /\ at_token (walk M ms) = length xs /\ points (walk M ms) = (2 * Z.of_nat (length xs) - Z.of_nat m)%Z.
  Proof.
    intros xs. induction xs as [|x xs IH] using rev_ind; intros m H SS.
    - exists (repeat Omit m). destruct (walk_omits m []) as [A [B C]]. cbn [app] in A, B, C. rewrite A, B, C. cbn. lia.
    - assert (Hx : nth_error (xs ++ [x]) (length xs) = Some x) by (rewrite nth_error_app2, Nat.sub_diag by lia; reflexivity).
      destruct (H _ _ Hx) as [X1 X2].
      destruct (IH (x - 1)) as [ms [A [B C]]].
      { intros i x' Hi. assert (Li : i < length xs) by (apply nth_error_Some; congruence).
        assert (Hi' : nth_error (xs ++ [x]) i = Some x') by (rewrite nth_error_app1 by assumption; assumption).
        destruct (H i x' Hi') as [Y1 Y2]. split; [|assumption]. split; [lia|].
        enough (x' < x) by lia. clear - SS Hx Hi' Li.
        assert (G : forall d i x', i + S d = length xs -> nth_error (xs ++ [x]) i = Some x' -> x' < x).
        { induction d as [|d IHd]; intros j y E Hj.
          - apply (SS j y x Hj). replace (S j) with (length xs) by lia. assumption.
          - destruct (nth_error (xs ++ [x]) (S j)) as [z|] eqn:Hz.
            + pose proof (SS j y z Hj Hz). pose proof (IHd (S j) z ltac:(lia) Hz). lia.
            + apply nth_error_None in Hz. rewrite app_length in Hz. cbn in Hz. lia. }
        apply (G (length xs - i - 1) i x'); [lia|assumption]. }
      { intros i a b Ha Hb. apply (SS i a b); rewrite nth_error_app1; try assumption; apply nth_error_Some; congruence. }
      exists ((ms ++ [Pair]) ++ repeat Omit (m - x)). destruct (walk_omits (m - x) (ms ++ [Pair])) as [D [E F]].
      rewrite D, E, F, walk_snoc. unfold step. cbn [at_rank at_token points is_hit]. rewrite A, B, C, app_length. cbn [length].
      replace (S (x - 1)) with x by lia. rewrite X2. lia.
  Qed.
End Walks.

(** ** Graphs *)
Lemma rank_trans : forall g rk, (forall u v, edge g u v -> rk u < rk v) -> forall u v, clos_trans vid (edge g) u v -> rk u < rk v.
Proof. intros g rk R u v H. induction H; [auto|lia]. Qed.

Lemma longest_edge : forall g rk u v, longest_from_start g rk -> In u (vertices g) -> In v (vertices g) -> edge g u v -> rk u < rk v.
Proof.
  intros g rk u v L Hu Hv E. destruct (L u Hu) as [A _]. destruct (L v Hv) as [_ B].
  specialize (B (S (rk u)) (pl_snoc g _ _ _ _ A E)). lia.
Qed.

Lemma path_len_mono : forall g g' n u v, (forall u v, edge g u v -> edge g' u v) -> path_len g n u v -> path_len g' n u v.
Proof. intros g g' n u v I H. induction H; [constructor|]. apply pl_snoc with v; auto. Qed.

(** A graph with the same vertices and further edges that ascend keeps the ranks. *)
Lemma longest_more : forall g g' rk, longest_from_start g rk -> (forall v, In v (vertices g') <-> In v (vertices g)) ->
  (forall u v, edge g u v -> edge g' u v) -> (forall u v, edge g' u v -> rk u < rk v) -> longest_from_start g' rk.
Proof.
  intros g g' rk L V I R v Hv. apply V in Hv. destruct (L v Hv) as [A _]. split; [apply (path_len_mono g); assumption|].
  intros n P. clear - P R. induction P; [lia|]. apply R in H. lia.
Qed.

(** ** One step *)
Section Step.
  Variables (c : collation) (ti : tindex).
  Hypothesis IX : index_ok c ti.
  Hypothesis TX : index_text_ok ti.
  Hypothesis SG : ~ In [] (map w_sigil c).
  Variable topo : graph -> res (list vid).
  Hypothesis TO : topo_ok topo.

  Theorem step_reads : forall done iw rest st W st' vs, ti_wits ti = done ++ iw :: rest -> W <> [] ->
    al_inv None ti done st W -> next_step topo None false ti st iw = Ok st' ->
    reads_along (a_graph st) vs (map tk_str (iw_toks iw)) ->
    exists rk mm l (wp : wpath), rank_ok (a_graph st) rk mm l /\ fst wp = iw_sigil iw /\
      al_inv None ti (done ++ [iw]) st' (W ++ [wp]) /\
      (forall v, In v (vertices (a_graph st')) <-> In v (vertices (a_graph st))) /\
      longest_from_start (a_graph st') rk.
  Proof.
    intros done iw rest st W st' vs DW NW AL H [RD RT].
    destruct (step_optimal c ti None IX TX SG topo TO done iw rest st W st' DW NW AL H) as [rk [mm [l [path [M [ms [RO [AL' OS]]]]]]]].
    pose proof (al_graph _ _ _ _ _ AL) as GI. pose proof (al_graph _ _ _ _ _ AL') as GI'.
    set (g := a_graph st) in *. set (g' := a_graph st') in *. set (wp := (iw_sigil iw, steps (iw_toks iw) path)) in *.
    pose proof (longest g W rk mm l GI RO NW) as LG.
    exists rk, mm, l, wp. split; [assumption|]. split; [reflexivity|]. split; [assumption|].
    assert (ONE : forall wp v ts, In wp W -> In (v, ts) (snd wp) -> exists t, ts = [t]).
    { intros wp0 v ts A B. destruct (Forall2_In_r _ _ _ _ (al_paths _ _ _ _ _ AL) A) as [iw' [_ [_ [pth [_ E]]]]].
      rewrite E in B. destruct (steps_single _ _ _ _ B) as [t [-> _]]. eauto. }
    assert (VV : forall i v, nth_error vs i = Some v -> In v (vertices g) /\ 1 <= rk v <= rk v_end - 1 /\ M (S i) (rk v) = true).
    { intros i v Hi.
      assert (Li : i < length (iw_toks iw)).
      { rewrite <- (map_length tk_str), <- (Forall2_len _ _ _ RD). apply nth_error_Some. congruence. }
      destruct (nth_error_lt_ex (iw_toks iw) i Li) as [t Ht].
      assert (R : reads g v (tk_str t)).
      { apply (Forall2_nth_error _ _ _ RD i v (tk_str t) Hi). rewrite nth_error_map, Ht. reflexivity. }
      assert (Hv : In v (vertices g)).
      { destruct R as [vx [_ [_ [_ [D _]]]]]. apply (dget_In _ nat_eqb_ok) in D. apply (in_map fst) in D. exact D. }
      apply (on_vertex_reads g W v (tk_str t) GI ONE) in R.
      split; [assumption|]. split.
      - destruct R as [wp0 [t0 [R1 [R2 R3]]]].
        pose proof (gi_simple _ _ GI wp0 R1) as ND. unfold chain in ND. inversion ND as [|? ? ND1 ND2]; subst.
        assert (v <> v_start). { intros ->. apply ND1. apply in_or_app. left. apply (in_map fst) in R2. exact R2. }
        assert (v <> v_end).
        { intros ->. apply NoDup_app_iff in ND2 as [_ [_ ND2]]. apply (ND2 v_end); [apply (in_map fst) in R2; exact R2|left; reflexivity]. }
        assert (rk v <> 0). { intros C. apply (rank_zero g W rk mm l GI RO NW v Hv) in C. contradiction. }
        pose proof (rank_le_end g W rk mm l GI RO NW v Hv). intuition lia.
      - apply (os_complete _ _ _ _ _ _ _ _ OS eq_refl (S i) (rk v) t v); auto; [lia|]. cbn [Nat.sub]. rewrite Nat.sub_0_r. assumption. }
    destruct (walk_exists M (map rk vs) (rk v_end - 1)) as [ms' [B1 [B2 B3]]].
    { intros i x Hi. rewrite nth_error_map in Hi. destruct (nth_error vs i) as [v|] eqn:Hv; [|discriminate]. injection Hi as <-.
      destruct (VV i v Hv) as [_ [A B]]. auto. }
    { intros i x x' Hi Hj. rewrite nth_error_map in Hi, Hj. destruct (nth_error vs i) as [v|] eqn:Hv; [|discriminate]. injection Hi as <-.
      destruct (nth_error vs (S i)) as [v'|] eqn:Hv'; [|discriminate]. injection Hj as <-.
      apply (rank_trans g rk (ro_edge _ _ _ _ RO)). apply RT. apply (pairs_nth _ i); assumption. }
    assert (LV : length (map rk vs) = length (iw_toks iw)) by (rewrite map_length, (Forall2_len _ _ _ RD), map_length; reflexivity).
    rewrite LV in B2, B3.
    pose proof (os_best _ _ _ _ _ _ _ _ OS ms' B1 B2) as BE. pose proof (walk_bound M ms) as BB.
    pose proof (os_rank _ _ _ _ _ _ _ _ OS) as OR. pose proof (os_token _ _ _ _ _ _ _ _ OS) as OT.
    destruct (walk_full M ms) as [F1 [F2 [F3 F4]]]; [rewrite OR, OT in *; lia|].
    assert (PA : forall i v, nth_error path i = Some v -> In v (vertices g) /\ In (S i, rk v) (met (walk M ms))).
    { intros i v Hi. assert (Li : i < length (iw_toks iw)).
      { rewrite <- (os_len _ _ _ _ _ _ _ _ OS). apply nth_error_Some. congruence. }
      destruct (F2 (S i)) as [x Hx]; [rewrite OT; lia|].
      destruct (os_met _ _ _ _ _ _ _ _ OS (S i) x Hx) as [y' [v' [_ [_ [C1 [C2 [C3 [C4 [C5 _]]]]]]]]].
      assert (y' = S i). { destruct (Nat.eq_dec y' (S i)); [assumption|]. assert (x < x) by (apply (F3 (S i) x y' x Hx C2); lia). lia. }
      subst y'. cbn [Nat.sub] in C3. rewrite Nat.sub_0_r in C3. assert (v' = v) by congruence. subst v'. rewrite C5. auto. }
    assert (PV : forall v, In v path -> In v (vertices g)).
    { intros v Hv. apply In_nth_error in Hv as [i Hi]. apply (PA i v Hi). }
    assert (SF : map fst (snd wp) = path) by (apply steps_fst; apply (os_len _ _ _ _ _ _ _ _ OS)).
    assert (VE : forall v, In v (vertices g') <-> In v (vertices g)).
    { intros v. split; intros Hv.
      - destruct (gi_cover _ _ GI' v Hv) as [->|[->|[p [ts [Hp Hi]]]]]; [apply (start_In _ _ GI)|apply (end_In _ _ GI)|].
        apply in_app_or in Hp as [Hp|[<-|[]]]; [apply (gi_on _ _ GI p v ts Hp Hi)|].
        apply PV. rewrite <- SF. apply (in_map fst) in Hi. exact Hi.
      - destruct (gi_cover _ _ GI v Hv) as [->|[->|[p [ts [Hp Hi]]]]]; [apply (start_In _ _ GI')|apply (end_In _ _ GI')|].
        apply (gi_on _ _ GI' p v ts); [apply in_or_app; left; assumption|assumption]. }
    split; [assumption|].
    apply (longest_more g g' rk LG VE).
    - intros u v E. apply (graph_edge_path g W u v GI) in E as [p [P1 P2]]. apply (graph_edge_path g' _ u v GI').
      exists p. split; [apply in_or_app; left; assumption|assumption].
    - intros u v E. apply (graph_edge_path g' _ u v GI') in E as [p [P1 P2]].
      apply in_app_or in P1 as [P1|[<-|[]]].
      + apply (ro_edge _ _ _ _ RO). apply (graph_edge_path g W u v GI). eauto.
      + unfold chain in P2. rewrite SF in P2. apply pairs_nth_inv in P2 as [i [I1 I2]].
        assert (ES : rk v_start = 0) by apply (rank_start g W rk mm l GI RO).
        assert (EE : rk v_start < rk v_end) by (apply (rank_le_end g W rk mm l GI RO NW); [apply (start_In _ _ GI)|discriminate]).
        assert (G : forall j w, nth_error (v_start :: path ++ [v_end]) j = Some w ->
          (j = 0 /\ w = v_start) \/ (1 <= j <= length path /\ In (j, rk w) (met (walk M ms))) \/ (j = S (length path) /\ w = v_end)).
        { intros [|j] w Hw; [left; cbn in Hw; split; congruence|]. right. cbn [nth_error] in Hw.
          destruct (Nat.lt_ge_cases j (length path)) as [Lj|Lj].
          - left. rewrite nth_error_app1 in Hw by assumption. split; [lia|]. apply (PA j w Hw).
          - right. rewrite nth_error_app2 in Hw by assumption. destruct (j - length path) as [|d] eqn:Ej; [|destruct d; discriminate].
            cbn in Hw. split; [lia|congruence]. }
        destruct (G _ _ I1) as [[A1 ->]|[[A1 A2]|[A1 ->]]]; destruct (G _ _ I2) as [[C1 C2]|[[C1 C2]|[C1 C2]]]; try lia.
        * destruct (F1 _ _ C2). lia.
        * subst v. assumption.
        * apply (F3 i (rk u) (S i) (rk v)); auto.
        * subst v. destruct (F1 _ _ A2). lia.
  Qed.
End Step.

(** ** The rows of the table *)
Section Rows.
  Variables (g : graph) (W : list wpath) (rk : vid -> nat) (m : nat) (l : list vid).
  Hypothesis GI : graph_of g W.
  Hypothesis RO : rank_ok g rk m l.
  Hypothesis NW : W <> [].

  Definition cell_at (p : wpath) (x : nat) : cell :=
    match flat_map snd (filter (fun s : vid * list token => rk (fst s) =? x) (snd p)) with [] => None | ts => Some ts end.

  Lemma row_cells : forall sigla p, In p W ->
    r_cells (construct_row (t_columns (the_table W rk m l sigla)) (fst p)) = map (cell_at p) (seq 1 (m - 2)).
  Proof.
    intros sigla p Hp. destruct (placed_ranks g W rk m l _ GI NW RO (base_placed g W rk m l GI NW RO rk m l RO)) as [P1 _].
    rewrite <- P1, map_map. unfold construct_row, the_table. cbn [r_cells t_columns]. rewrite map_map.
    apply map_ext_in. intros [r vs] Hr. cbn [mkcol c_cells snd fst]. unfold table_ranks, ranks_table in Hr. apply filter_In in Hr as [Hr _].
    pose proof (cells_get g W rk _ GI (path_sorted g W rk m l GI RO) (ranks_vs g W rk m l GI RO) r vs p Hr Hp) as C.
    unfold cell_at. rewrite <- C.
    destruct (cell_of g W rk m l GI p r vs Hp Hr) as [->|[v [ts [V1 [V2 ->]]]]]; [reflexivity|].
    cbn [cell_tokens]. destruct (gi_on _ _ GI p v ts Hp V2) as [_ N]. destruct ts; [congruence|reflexivity].
  Qed.

  Lemma table_width : forall sigla, length (t_columns (the_table W rk m l sigla)) = m - 2.
  Proof.
    intros sigla. unfold the_table, table_ranks, ranks_table. cbn [t_columns]. rewrite map_length.
    destruct (placed_ranks g W rk m l _ GI NW RO (base_placed g W rk m l GI NW RO rk m l RO)) as [P1 _].
    rewrite <- (map_length fst), P1. apply seq_length.
  Qed.
End Rows.

Lemma cell_at_ext : forall rk rk' p x, (forall v, In v (map fst (snd p)) -> rk v = rk' v) -> cell_at rk p x = cell_at rk' p x.
Proof.
  intros rk rk' p x E. unfold cell_at. replace (filter (fun s : vid * list token => rk (fst s) =? x) (snd p)) with (filter (fun s : vid * list token => rk' (fst s) =? x) (snd p)); [reflexivity|].
  apply filter_ext_in. intros a Ha. rewrite E; [reflexivity|]. apply in_map. assumption.
Qed.

(** ** Excerpts *)
Lemma excerpt_Forall2 : forall {A B} (R : A -> B -> Prop) (ss l : list B), excerpt ss l -> forall P, Forall2 R P l -> exists vs, excerpt vs P /\ Forall2 R vs ss.
Proof.
  intros A B R ss l X. induction X as [l|a l1 l2 X IH|a l1 l2 X IH]; intros P F.
  - exists []. split; constructor.
  - inversion F as [|p b P' l' H F']; subst. destruct (IH P' F') as [vs [V1 V2]]. exists (p :: vs). split; constructor; assumption.
  - inversion F as [|p b P' l' H F']; subst. destruct (IH P' F') as [vs [V1 V2]]. exists vs. split; [constructor; assumption|assumption].
Qed.

Lemma excerpt_pairs : forall {A} (E : A -> A -> Prop) vs P, excerpt vs P ->
  forall a, (forall u v, In (u, v) (pairs (a :: P)) -> clos_trans A E u v) -> forall u v, In (u, v) (pairs (a :: vs)) -> clos_trans A E u v.
Proof.
  intros A E vs P X. induction X as [l|b l1 l2 X IH|b l1 l2 X IH]; intros a H u v I.
  - destruct I.
  - rewrite pairs_cons in I. destruct I as [I|I].
    + injection I as <- <-. apply H. rewrite pairs_cons. left. reflexivity.
    + apply (IH b); [|assumption]. intros x y J. apply H. rewrite pairs_cons. right. assumption.
  - apply (IH a); [|assumption]. intros x y J. destruct l2 as [|d l2]; [destruct J|]. rewrite pairs_cons in J. destruct J as [J|J].
    + injection J as <- <-. apply t_trans with b; apply H; rewrite !pairs_cons; [left; reflexivity|right; left; reflexivity].
    + apply H. rewrite !pairs_cons. right. right. assumption.
Qed.

Lemma excerpt_tail : forall {A} (E : A -> A -> Prop) vs P, excerpt vs P ->
  (forall u v, In (u, v) (pairs P) -> E u v) -> forall u v, In (u, v) (pairs vs) -> clos_trans A E u v.
Proof.
  intros A E vs P X. induction X as [l|b l1 l2 X IH|b l1 l2 X IH]; intros H u v I.
  - destruct I.
  - apply (excerpt_pairs E l1 l2 X b); [|assumption]. intros x y J. apply t_step. apply H. assumption.
  - apply IH; [|assumption]. intros x y J. apply H. destruct l2 as [|d l2]; [destruct J|]. rewrite pairs_cons. right. assumption.
Qed.

Lemma inner_pairs : forall {A} (a b : A) l u v, In (u, v) (pairs l) -> In (u, v) (pairs (a :: l ++ [b])).
Proof.
  intros A a b l u v H. apply pairs_In in H as [l1 [l2 ->]]. apply pairs_In. exists (a :: l1), (l2 ++ [b]). rewrite <- app_assoc. reflexivity.
Qed.

Lemma excerpt_reads : forall filt ti done st W iw ss, al_inv filt ti done st W -> In iw done -> excerpt ss (map tk_str (iw_toks iw)) ->
  exists vs, reads_along (a_graph st) vs ss.
Proof.
  intros filt ti done st W iw ss AL H X. destruct (Forall2_In_l _ _ _ _ (al_paths _ _ _ _ _ AL) H) as [wp [Hw [F1 [path [L F2]]]]].
  pose proof (al_graph _ _ _ _ _ AL) as GI.
  assert (ONE : forall wp v ts, In wp W -> In (v, ts) (snd wp) -> exists t, ts = [t]).
  { intros wp0 v ts A B. destruct (Forall2_In_r _ _ _ _ (al_paths _ _ _ _ _ AL) A) as [iw' [_ [_ [pth [_ E]]]]].
    rewrite E in B. destruct (steps_single _ _ _ _ B) as [t [-> _]]. eauto. }
  assert (R : Forall2 (reads (a_graph st)) path (map tk_str (iw_toks iw))).
  { assert (G : forall p ts, length p = length ts -> (forall v t, In (v, [t]) (steps ts p) -> In (v, [t]) (snd wp)) -> Forall2 (reads (a_graph st)) p (map tk_str ts)).
    { induction p as [|v p IH]; intros [|t ts] Q I; try discriminate; cbn [map]; constructor.
      - apply (on_vertex_reads _ W v (tk_str t) GI ONE). exists wp, t. split; [assumption|]. split; [|reflexivity]. apply I. left. reflexivity.
      - apply IH; [cbn in Q; lia|]. intros v' t' J. apply I. right. assumption. }
    apply G; [assumption|]. intros v t J. rewrite F2. assumption. }
  destruct (excerpt_Forall2 _ _ _ X path R) as [vs [V1 V2]]. exists vs. split; [assumption|].
  apply (excerpt_tail _ vs path V1). intros u v J. apply (graph_edge_path _ W u v GI). exists wp. split; [assumption|].
  unfold chain. rewrite F2, steps_fst by assumption. apply inner_pairs. assumption.
Qed.

Lemma sorted_at : forall (rk : vid -> nat) x (L : list (vid * list token)), StronglySorted (fun a b => rk (fst a) < rk (fst b)) L ->
  forall a, In a L -> rk (fst a) = x -> filter (fun s => rk (fst s) =? x) L = [a].
Proof.
  intros rk x L SL. induction SL as [|b L SL IH F]; intros a H E; [destruct H|]. cbn [filter].
  rewrite Forall_forall in F. destruct H as [->|H].
  - rewrite E, Nat.eqb_refl. f_equal. assert (N : forall L', (forall b, In b L' -> In b L) -> filter (fun s : vid * list token => rk (fst s) =? x) L' = []).
    { induction L' as [|d L' IH']; intros I; [reflexivity|]. cbn [filter]. pose proof (F d (I d (or_introl eq_refl))).
      replace (rk (fst d) =? x) with false by (symmetry; apply Nat.eqb_neq; lia). apply IH'. intros; apply I; right; assumption. }
    apply N. auto.
  - pose proof (F a H). replace (rk (fst b) =? x) with false by (symmetry; apply Nat.eqb_neq; lia). apply IH; assumption.
Qed.

Lemma cell_at_some : forall g W rk m l p x ts, graph_of g W -> rank_ok g rk m l -> In p W ->
  (cell_at rk p x = Some ts <-> exists v, In (v, ts) (snd p) /\ rk v = x).
Proof.
  intros g W rk m l p x ts GI RO Hp. pose proof (path_sorted g W rk m l GI RO p Hp) as SP. unfold cell_at. split.
  - intros H. destruct (filter (fun s : vid * list token => rk (fst s) =? x) (snd p)) as [|[v ts0] r] eqn:E; [discriminate|].
    assert (I : In (v, ts0) (filter (fun s : vid * list token => rk (fst s) =? x) (snd p))) by (rewrite E; left; reflexivity).
    apply filter_In in I as [I1 I2]. cbn [fst] in I2. apply Nat.eqb_eq in I2.
    rewrite (sorted_at rk x _ SP (v, ts0) I1 I2) in E. injection E as <-. cbn [flat_map snd] in H. rewrite app_nil_r in H.
    exists v. split; [|assumption]. destruct ts0; [discriminate|]. injection H as <-. assumption.
  - intros [v [I1 I2]]. rewrite (sorted_at rk x _ SP (v, ts) I1 I2). cbn [flat_map snd]. rewrite app_nil_r.
    destruct (gi_on _ _ GI p v ts Hp I1) as [_ N]. destruct ts; [congruence|reflexivity].
Qed.
