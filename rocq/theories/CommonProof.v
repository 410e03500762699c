(** Common endings and beginnings are aligned. *)
From Verif Require Import Py Lib TokenModel SuffixModel IndexModel GraphModel AlignModel GraphSpec SuffixSpec
  GraphProof MergeProof RankProof TableModel TableSpec TableProof AlignProof IndexProof BlockText InstProof CubeProof AlignerProof CollateProof CollateSpec StageProof
  WalkSpec WalkProof WalkAlign WalkStage NearProof NearTwoProof PairProof IdentProof ReadProof CommonSpec.
From Coq Require Import Sorted.
Open Scope list_scope.
Open Scope nat_scope.

(** ** Walks that end with pairs *)
Section Walks.
  Variable M : nat -> nat -> bool.
  Notation wsnoc := (WalkProof.walk_snoc M).

  Lemma drop_token : forall ms y, at_token (walk M ms) = S y ->
    exists ms', at_rank (walk M ms') = at_rank (walk M ms) /\ at_token (walk M ms') = y /\ (points (walk M ms) <= points (walk M ms') + 2)%Z.
  Proof.
    induction ms as [|m ms IH] using rev_ind; intros y H; [discriminate|]. rewrite wsnoc in *. destruct m; cbn [step at_token at_rank points is_hit] in *.
    - exists (ms ++ [Omit]). rewrite wsnoc. cbn [step at_token at_rank points is_hit]. split; [reflexivity|]. split; [lia|]. destruct (M _ _); lia.
    - destruct (IH y H) as [ms' [A [B C]]]. exists (ms' ++ [Omit]). rewrite wsnoc. cbn [step at_token at_rank points is_hit]. split; [lia|]. split; [assumption|lia].
    - exists ms. split; [reflexivity|]. split; [lia|]. destruct (_ && _); lia.
  Qed.

  Lemma drop_rank : forall x, (forall y, M y (S x) && M (S y) (S x) = false) -> forall ms, at_rank (walk M ms) = S x ->
    exists ms', at_rank (walk M ms') = x /\ at_token (walk M ms') = at_token (walk M ms) /\ (points (walk M ms) <= points (walk M ms') + 2)%Z.
  Proof.
    intros x ND. induction ms as [|m ms IH] using rev_ind; intros H; [discriminate|]. rewrite wsnoc in *. destruct m; cbn [step at_token at_rank points is_hit] in *.
    - exists (ms ++ [Add]). rewrite wsnoc. cbn [step at_token at_rank points is_hit]. split; [lia|]. split; [reflexivity|].
      destruct (M _ _); destruct (_ && _); lia.
    - exists ms. split; [lia|]. split; [reflexivity|lia].
    - destruct (IH H) as [ms' [A [B C]]]. exists (ms' ++ [Add]). rewrite wsnoc. cbn [step at_token at_rank points is_hit].
      split; [assumption|]. split; [lia|]. rewrite H. replace (S (at_token (walk M ms)) - 1) with (at_token (walk M ms)) by lia. rewrite ND.
      destruct (_ && _); lia.
  Qed.

  Lemma last_pair : forall ms m, preferred M (ms ++ [m]) ->
    M (at_token (walk M (ms ++ [m]))) (at_rank (walk M (ms ++ [m]))) = true ->
    1 <= at_token (walk M (ms ++ [m])) -> 1 <= at_rank (walk M (ms ++ [m])) ->
    (forall y, M y (at_rank (walk M (ms ++ [m]))) && M (S y) (at_rank (walk M (ms ++ [m]))) = false) -> m = Pair.
  Proof.
    intros ms m PF H LT LR ND.
    assert (Q : m <> Pair -> exists other, S (at_rank (walk M other)) = at_rank (walk M (ms ++ [m])) /\ S (at_token (walk M other)) = at_token (walk M (ms ++ [m])) /\
      (points (walk M (ms ++ [m])) <= points (walk M other) + 1)%Z).
    { intros NP. rewrite wsnoc in *. destruct m; cbn [step at_token at_rank points is_hit] in *; [congruence| |].
      - destruct (drop_token ms (at_token (walk M ms) - 1)) as [ms' [A [B C]]]; [lia|]. exists ms'. split; [lia|]. split; [lia|]. lia.
      - destruct (drop_rank (at_rank (walk M ms) - 1)) with (ms := ms) as [ms' [A [B C]]];
          [replace (S (at_rank (walk M ms) - 1)) with (at_rank (walk M ms)) by lia; assumption|lia|].
        exists ms'. split; [lia|]. split; [lia|]. replace (S (at_token (walk M ms)) - 1) with (at_token (walk M ms)) by lia. rewrite ND. lia. }
    destruct m; [reflexivity| |]; exfalso.
    all: destruct Q as [other [A [B C]]]; [discriminate|];
      assert (P1 : points (walk M (other ++ [Pair])) = (points (walk M other) + 1)%Z) by (rewrite wsnoc; cbn [step points is_hit]; rewrite A, B, H; reflexivity).
    - assert (LTP := PF ms Omit [] eq_refl). specialize (LTP Pair I other). rewrite P1 in LTP. rewrite (wsnoc other Pair) in LTP.
      cbn [step at_rank at_token] in LTP. specialize (LTP A B). lia.
    - assert (LTP := PF ms Add [] eq_refl). specialize (LTP Pair I other). rewrite P1 in LTP. rewrite (wsnoc other Pair) in LTP.
      cbn [step at_rank at_token] in LTP. specialize (LTP A B). lia.
  Qed.

  Lemma preferred_prefix : forall ms m, preferred M (ms ++ [m]) -> preferred M ms.
  Proof.
    intros ms m PF before mv after E. subst ms. apply (PF before mv (after ++ [m])). rewrite <- app_assoc. reflexivity.
  Qed.

  Lemma last_pairs : forall n ms, preferred M ms -> n <= at_rank (walk M ms) -> n <= at_token (walk M ms) ->
    (forall i, i < n -> M (at_token (walk M ms) - i) (at_rank (walk M ms) - i) = true) ->
    (forall i y, i < n -> M y (at_rank (walk M ms) - i) && M (S y) (at_rank (walk M ms) - i) = false) ->
    exists ms0, ms = ms0 ++ repeat Pair n.
  Proof.
    induction n as [|n IH]; intros ms PF LR LT H ND; [exists ms; rewrite app_nil_r; reflexivity|].
    destruct ms as [|m ms _] using rev_ind; [cbn in LR; lia|].
    assert (m = Pair).
    { apply (last_pair ms m PF); try lia.
      - specialize (H 0). rewrite !Nat.sub_0_r in H. apply H. lia.
      - intros y. specialize (ND 0 y). rewrite !Nat.sub_0_r in ND. apply ND. lia. }
    subst m. apply preferred_prefix in PF. rewrite wsnoc in *. cbn [step at_token at_rank] in *.
    destruct (IH ms PF) as [ms0 E]; try lia.
    - intros i Hi. specialize (H (S i)). cbn [Nat.sub] in H. apply H. lia.
    - intros i y Hi. specialize (ND (S i) y). cbn [Nat.sub] in ND. apply ND. lia.
    - exists ms0. rewrite E, <- app_assoc. f_equal. symmetry. apply repeat_cons.
  Qed.

  Lemma met_bounds : forall ms y x, In (y, x) (met (walk M ms)) -> y <= at_token (walk M ms) /\ x <= at_rank (walk M ms) /\ M y x = true.
  Proof.
    induction ms as [|m ms IH] using rev_ind; intros y x H; [destruct H|]. rewrite wsnoc in *. unfold step in *. cbn [met at_token at_rank] in *.
    destruct (is_hit M m _ _) eqn:E.
    - apply in_app_or in H as [H|[H|[]]]; [apply IH in H as [A [B C]]; destruct m; repeat split; auto; lia|].
      injection H as <- <-. split; [lia|]. split; [lia|]. destruct m; cbn [is_hit] in E; [assumption|discriminate|]. apply andb_true_iff in E. apply E.
    - apply IH in H as [A [B C]]. destruct m; repeat split; auto; lia.
  Qed.

  Lemma pairs_walk : forall n ms0, at_rank (walk M (ms0 ++ repeat Pair n)) = at_rank (walk M ms0) + n /\
    at_token (walk M (ms0 ++ repeat Pair n)) = at_token (walk M ms0) + n /\
    (forall y x, In (y, x) (met (walk M (ms0 ++ repeat Pair n))) -> at_rank (walk M ms0) < x -> y + at_rank (walk M ms0) = x + at_token (walk M ms0)) /\
    (forall i, 1 <= i <= n -> M (at_token (walk M ms0) + i) (at_rank (walk M ms0) + i) = true ->
      In (at_token (walk M ms0) + i, at_rank (walk M ms0) + i) (met (walk M (ms0 ++ repeat Pair n)))).
  Proof.
    induction n as [|n IH]; intros ms0.
    - cbn [repeat]. rewrite app_nil_r. repeat split; try lia. intros y x H L. apply met_bounds in H. lia.
    - destruct (IH ms0) as [A [B [C D]]]. replace (repeat Pair (S n)) with (repeat Pair n ++ [Pair]) by (symmetry; apply repeat_cons).
      rewrite app_assoc, wsnoc. unfold step. cbn [at_rank at_token met is_hit]. rewrite A, B. split; [lia|]. split; [lia|]. split.
      + intros y x H L. destruct (M _ _); [|apply C; assumption]. apply in_app_or in H as [H|[H|[]]]; [apply C; assumption|]. injection H as <- <-. lia.
      + intros i Hi H. destruct (Nat.eq_dec i (S n)) as [->|N].
        * replace (S (at_token (walk M ms0) + n)) with (at_token (walk M ms0) + S n) by lia.
          replace (S (at_rank (walk M ms0) + n)) with (at_rank (walk M ms0) + S n) by lia. rewrite H. apply in_or_app. right. left. reflexivity.
        * specialize (D i). destruct (M (S (at_token (walk M ms0) + n)) _); [apply in_or_app; left|]; apply D; auto; lia.
  Qed.
End Walks.

(** ** Ranks of vertices that all paths have in common *)
Lemma hd_In : forall (W : list wpath), W <> [] -> In (hd ([], []) W) W.
Proof. intros [|wp W] H; [congruence|]. left. reflexivity. Qed.

Section Ranks.
  Variables (g : graph) (W : list wpath) (rk : vid -> nat) (mm : nat) (l : list vid).
  Hypothesis GI : graph_of g W.
  Hypothesis NW : W <> [].
  Hypothesis RO : rank_ok g rk mm l.

  (** A vertex that every path enters from [a] has the rank after [a]. *)
  Lemma only_pred : forall a b, In (a, b) (pairs (chain (hd ([], []) W))) -> (forall wp, In wp W -> In b (chain wp) -> In (a, b) (pairs (chain wp))) -> rk b = S (rk a).
  Proof.
    intros a b H0 H. assert (E : edge g a b).
    { apply (graph_edge_path g W a b GI). exists (hd ([], []) W). split; [|assumption]. destruct W; [congruence|]. left. reflexivity. }
    pose proof (ro_edge _ _ _ _ RO _ _ E) as LT. destruct (graph_edge_verts g W a b GI E) as [Va Vb].
    destruct (longest g W rk mm l GI RO NW b Vb) as [P _]. inversion P as [? E0|n u v w P' Ev E0]; subst; [lia|].
    apply (graph_edge_path g W v b GI) in Ev as [wp [Hw Q]].
    assert (In b (chain wp)). { apply pairs_In in Q as [l1 [l2 ->]]. apply in_or_app. right. right. left. reflexivity. }
    assert (v = a) by (eapply pairs_pred; [apply (gi_simple _ _ GI wp Hw)|apply H; assumption|eassumption]). subst v.
    destruct (longest g W rk mm l GI RO NW a Va) as [_ B]. apply B in P'. lia.
  Qed.

  Lemma chain_lt : forall wp i j a b, In wp W -> i < j -> nth_error (chain wp) i = Some a -> nth_error (chain wp) j = Some b -> rk a < rk b.
  Proof.
    intros wp i j a b Hw Hij Ha Hb.
    apply nth_error_split in Hb as [l1 [l2 [E L]]]. rewrite E, nth_error_app1 in Ha by lia. apply nth_error_split in Ha as [l3 [l4 [E' _]]].
    apply (chain_ranks g W rk mm l GI RO wp l3 a l4 b l2 Hw). rewrite E, E', <- app_assoc. reflexivity.
  Qed.

  Lemma on_chain : forall v, In v (vertices g) -> exists wp, In wp W /\ In v (chain wp).
  Proof.
    intros v Hv. destruct (gi_cover _ _ GI v Hv) as [->|[->|[p [ts [H1 H2]]]]].
    - destruct W as [|wp W']; [congruence|]. exists wp. split; left; reflexivity.
    - destruct W as [|wp W']; [congruence|]. exists wp. split; [left; reflexivity|]. right. apply in_or_app. right. left. reflexivity.
    - exists p. split; [assumption|]. right. apply in_or_app. left. apply (in_map fst) in H2. exact H2.
  Qed.

  Lemma in_chain : forall wp v, In wp W -> In v (chain wp) -> In v (vertices g).
  Proof.
    intros wp v Hw [<-|H]; [apply (start_In g W GI)|]. apply in_app_or in H as [H|[<-|[]]]; [|apply (end_In g W GI)].
    apply in_map_iff in H as [[v' ts] [<- H]]. apply (gi_on _ _ GI wp v' ts Hw H).
  Qed.

  Section Tail.
    Variable vs : list vid.
    Hypothesis T : forall wp, In wp W -> exists pre, map fst (snd wp) = pre ++ vs.

    Lemma tail_chain : forall wp, In wp W -> exists pre, chain wp = pre ++ vs ++ [v_end].
    Proof. intros wp Hw. destruct (T wp Hw) as [pre E]. exists (v_start :: pre). unfold chain. rewrite E, <- app_assoc. reflexivity. Qed.

    Lemma tail_step : forall i a b, nth_error (vs ++ [v_end]) i = Some a -> nth_error (vs ++ [v_end]) (S i) = Some b -> rk b = S (rk a).
    Proof.
      intros i a b Ha Hb.
      assert (P : forall wp, In wp W -> In (a, b) (pairs (chain wp))).
      { intros wp Hw. destruct (tail_chain wp Hw) as [pre ->]. apply (pairs_nth _ (length pre + i)); rewrite nth_error_app2 by lia;
          [replace (length pre + i - length pre) with i by lia|replace (S (length pre + i) - length pre) with (S i) by lia]; assumption. }
      apply only_pred; [apply P, hd_In; assumption|]. intros wp Hw _. apply P. assumption.
    Qed.

    Lemma tail_rank : forall k v, k <= length vs -> nth_error (vs ++ [v_end]) (length vs - k) = Some v -> rk v + k = rk v_end.
    Proof.
      induction k as [|k IH]; intros v L H.
      - rewrite Nat.sub_0_r, nth_error_app2, Nat.sub_diag in H by lia. injection H as <-. lia.
      - destruct (nth_error_lt_ex (vs ++ [v_end]) (length vs - k)) as [b Hb]; [rewrite app_length; cbn; lia|].
        rewrite <- (IH b) by (auto; lia). rewrite (tail_step (length vs - S k) v b H); [lia|]. replace (S (length vs - S k)) with (length vs - k) by lia. assumption.
    Qed.

    Lemma tail_at : forall i v, nth_error vs i = Some v -> rk v + length vs = rk v_end + i.
    Proof.
      intros i v H. assert (L : i < length vs) by (apply nth_error_Some; congruence). pose proof (tail_rank (length vs - i) v) as Q.
      replace (length vs - (length vs - i)) with i in Q by lia. rewrite nth_error_app1 in Q by lia. specialize (Q ltac:(lia) H). lia.
    Qed.

    Lemma tail_only : forall v, In v (vertices g) -> v <> v_end -> rk v_end <= rk v + length vs -> nth_error vs (rk v + length vs - rk v_end) = Some v.
    Proof.
      intros v Hv NE L. destruct (on_chain v Hv) as [wp [Hw Hc]]. destruct (tail_chain wp Hw) as [pre E]. apply In_nth_error in Hc as [j Hj].
      destruct (le_lt_dec (length pre) j) as [Lj|Lj].
      - pose proof Hj as Hj'. rewrite E, nth_error_app2 in Hj by lia. destruct (le_lt_dec (length vs) (j - length pre)) as [L2|L2].
        + rewrite nth_error_app2 in Hj by lia. destruct (j - length pre - length vs) as [|k]; [injection Hj as <-; congruence|destruct k; discriminate].
        + rewrite nth_error_app1 in Hj by lia. pose proof (tail_at _ _ Hj). replace (rk v + length vs - rk v_end) with (j - length pre) by lia. assumption.
      - destruct (nth_error_lt_ex (vs ++ [v_end]) 0) as [h Hh]; [rewrite app_length; cbn; lia|].
        pose proof (tail_rank (length vs) h (le_n _)) as Q. rewrite Nat.sub_diag in Q. specialize (Q Hh).
        assert (H2 : nth_error (chain wp) (length pre) = Some h) by (rewrite E, nth_error_app2, Nat.sub_diag by lia; assumption).
        pose proof (chain_lt wp j (length pre) v h Hw Lj Hj H2). lia.
    Qed.
  End Tail.

  Section Head.
    Variable vs : list vid.
    Hypothesis T : forall wp, In wp W -> exists post, map fst (snd wp) = vs ++ post.

    Lemma head_chain : forall wp, In wp W -> exists post, chain wp = (v_start :: vs) ++ post.
    Proof. intros wp Hw. destruct (T wp Hw) as [post E]. exists (post ++ [v_end]). unfold chain. rewrite E, <- app_assoc. reflexivity. Qed.

    Lemma head_rank : forall i v, nth_error (v_start :: vs) i = Some v -> rk v = i.
    Proof.
      induction i as [|i IH]; intros v H; [injection H as <-; apply (rank_start g W rk mm l GI RO)|].
      assert (L : S i < length (v_start :: vs)) by (apply nth_error_Some; congruence).
      destruct (nth_error_lt_ex (v_start :: vs) i) as [a Ha]; [lia|].
      assert (P : forall wp, In wp W -> In (a, v) (pairs (chain wp))).
      { intros wp Hw. destruct (head_chain wp Hw) as [post ->]. apply (pairs_nth _ i); rewrite nth_error_app1 by lia; assumption. }
      rewrite (only_pred a v); [f_equal; apply IH; assumption|apply P, hd_In; assumption|]. intros wp Hw _. apply P. assumption.
    Qed.

    Lemma head_only : forall v, In v (vertices g) -> rk v <= length vs -> nth_error (v_start :: vs) (rk v) = Some v.
    Proof.
      intros v Hv L. destruct (on_chain v Hv) as [wp [Hw Hc]]. destruct (head_chain wp Hw) as [post E]. apply In_nth_error in Hc as [j Hj].
      destruct (le_lt_dec j (length vs)) as [Lj|Lj].
      - rewrite E, nth_error_app1 in Hj by (cbn [length]; lia). rewrite (head_rank _ _ Hj). assumption.
      - destruct (nth_error_lt_ex (v_start :: vs) (length vs)) as [h Hh]; [cbn [length]; lia|].
        assert (H2 : nth_error (chain wp) (length vs) = Some h) by (rewrite E, nth_error_app1 by (cbn [length]; lia); assumption).
        pose proof (chain_lt wp (length vs) j h v Hw Lj H2 Hj). rewrite (head_rank _ _ Hh) in H. lia.
    Qed.
  End Head.
End Ranks.

(** ** Words that all witnesses have on the same vertices *)
(** Every path has the vertices [vs] in a row, and the words on them are [u]; [h] (resp. [e]) says that nothing precedes (follows). *)
Definition anchored (h e : bool) (ts : list token) (path : list vid) (vs : list vid) (u : list str) : Prop :=
  exists p1 p2 s1 s2, path = p1 ++ vs ++ p2 /\ map tk_str ts = s1 ++ u ++ s2 /\ length p1 = length s1 /\ (h = true -> p1 = []) /\ (e = true -> p2 = []).

Definition all_anchored (h e : bool) (W : list wpath) (vs : list vid) (u : list str) : Prop :=
  forall wp, In wp W -> exists ts path, snd wp = steps ts path /\ length path = length ts /\ anchored h e ts path vs u.

Lemma list_ext : forall {A} (l1 l2 : list A), (forall i, nth_error l1 i = nth_error l2 i) -> l1 = l2.
Proof.
  induction l1 as [|a l1 IH]; intros [|b l2] H; [reflexivity|specialize (H 0); discriminate..|].
  pose proof (H 0) as H0. injection H0 as ->. f_equal. apply IH. intros i. apply (H (S i)).
Qed.

Lemma nth_firstn : forall {A} (l : list A) n i, i < n -> nth_error (firstn n l) i = nth_error l i.
Proof.
  induction l as [|a l IH]; intros n i L; [rewrite firstn_nil; reflexivity|]. destruct n as [|n]; [lia|]. destruct i as [|i]; [reflexivity|].
  cbn. apply IH. lia.
Qed.

Lemma tail_ext : forall {A} d (l vs : list A), length l = d + length vs -> (forall j, j < length vs -> nth_error l (d + j) = nth_error vs j) -> l = firstn d l ++ vs.
Proof.
  intros A d l vs L H. apply list_ext. intros i. assert (F : length (firstn d l) = d) by (apply firstn_length_le; lia).
  destruct (le_lt_dec d i) as [Li|Li].
  - rewrite nth_error_app2, F by lia. destruct (le_lt_dec (length vs) (i - d)) as [L2|L2].
    + rewrite !(proj2 (nth_error_None _ _)) by lia. reflexivity.
    + rewrite <- (H (i - d) L2). f_equal. lia.
  - rewrite nth_error_app1 by lia. symmetry. apply nth_firstn. assumption.
Qed.

(** A vertex on every path, and alone on its rank, makes a column that is not variant. *)
Lemma unique_column : forall g W rk mm l v, graph_of g W -> W <> [] -> rank_ok g rk mm l -> (forall wp, In wp W -> In v (map fst (snd wp))) ->
  1 <= rk v < rk v_end -> In v (vertices g) -> (forall w, In w (vertices g) -> rk w = rk v -> w = v) ->
  exists col, nth_error (t_columns (the_table W rk mm l (map fst W))) (rk v - 1) = Some col /\ c_variant col = false /\
    forall r, In r (t_rows (the_table W rk mm l (map fst W))) -> exists wp ts, In wp W /\ In (v, ts) (snd wp) /\ nth_error (r_cells r) (rk v - 1) = Some (Some ts).
Proof.
  intros g W rk mm l v GI NW RO ALL R Vv U.
  pose proof (rank_end_max g W rk mm l GI RO NW) as RM.
  destruct (placed_ranks g W rk mm l _ GI NW RO (base_placed g W rk mm l GI NW RO rk mm l RO)) as [P1 _].
  assert (Q : nth_error (map fst (table_ranks rk mm l)) (rk v - 1) = Some (rk v)).
  { unfold table_ranks, ranks_table. rewrite P1. rewrite (nth_error_nth' _ 0) by (rewrite seq_length; lia). rewrite seq_nth by lia. f_equal. lia. }
  rewrite nth_error_map in Q. destruct (nth_error (table_ranks rk mm l) (rk v - 1)) as [[r ws]|] eqn:ER; [|discriminate].
  cbn in Q. injection Q as ->. pose proof ER as ER'. apply nth_error_In in ER. unfold table_ranks in ER. apply filter_In in ER as [ER _].
  destruct (ranks_vs g W rk mm l GI RO _ _ ER) as [NV V].
  assert (ws = [v]).
  { assert (Iv : In v ws) by (apply V; auto). assert (X : forall w, In w ws -> w = v) by (intros w Hw; apply V in Hw as [? ?]; apply U; assumption).
    destruct ws as [|a [|b ws]]; [destruct Iv|f_equal; apply X; left; reflexivity|exfalso].
    assert (a = v) by (apply X; left; reflexivity). assert (b = v) by (apply X; right; left; reflexivity). subst. inversion NV as [|? ? N1 _]. apply N1. left. reflexivity. }
  subst ws. eexists. split; [unfold the_table; cbn [t_columns]; rewrite nth_error_map, ER'; reflexivity|]. split.
  - cbn [c_variant mkcol snd length Nat.ltb Nat.leb orb]. apply negb_false_iff, Nat.eqb_eq. unfold cells_of. cbn [flat_map]. rewrite app_nil_r, map_length.
    clear - ALL. induction W as [|wp W' IH]; [reflexivity|]. unfold tokens_on in *. cbn [flat_map]. rewrite app_length, IH by (intros; apply ALL; right; assumption).
    destruct (dget_Some_key _ nat_eqb_ok v (snd wp) (ALL wp (or_introl eq_refl))) as [ts ->]. reflexivity.
  - intros r Hr. unfold the_table in Hr. cbn [t_rows] in Hr. apply in_map_iff in Hr as [sg [<- Hg]]. apply in_map_iff in Hg as [wp [<- Hw]].
    change (map (mkcol W (length (map fst W))) (table_ranks rk mm l)) with (t_columns (the_table W rk mm l (map fst W))).
    rewrite (row_cells g W rk mm l GI RO NW (map fst W) wp Hw). pose proof (ALL wp Hw) as Iv. apply in_map_iff in Iv as [[v' ts] [Ev Ht]]. cbn [fst] in Ev. subst v'.
    exists wp, ts. split; [assumption|]. split; [assumption|]. rewrite nth_error_map.
    rewrite (nth_error_nth' _ 0) by (rewrite seq_length; lia). rewrite seq_nth by lia. cbn [option_map]. f_equal.
    replace (1 + (rk v - 1)) with (rk v) by lia. apply (cell_at_some g W rk mm l wp (rk v) ts GI RO Hw). eauto.
Qed.

Section Anchor.
  Variables (g : graph) (W : list wpath) (rk : vid -> nat) (mm : nat) (l : list vid).
  Hypothesis GI : graph_of g W.
  Hypothesis NW : W <> [].
  Hypothesis RO : rank_ok g rk mm l.
  Variables (h e : bool) (vs : list vid) (u : list str).
  Hypothesis AN : all_anchored h e W vs u.
  Hypothesis LV : length vs = length u.

  Lemma anchor_word : forall wp i v t s, In wp W -> nth_error vs i = Some v -> nth_error u i = Some s -> In (v, [t]) (snd wp) -> tk_str t = s.
  Proof.
    intros wp i v t s Hw Hv Hs Ht. destruct (AN wp Hw) as [ts [path [E [L [p1 [p2 [s1 [s2 [E1 [E2 [L1 _]]]]]]]]]]].
    rewrite E in Ht. apply steps_nth in Ht as [k [K1 K2]]; [|assumption].
    assert (ND : NoDup path).
    { pose proof (gi_simple _ _ GI wp Hw) as N. unfold chain in N. rewrite E, steps_fst in N by assumption. inversion N as [|? ? _ N2]; subst.
      apply NoDup_app_iff in N2. tauto. }
    assert (Li : i < length vs) by (apply nth_error_Some; congruence).
    assert (P : nth_error path (length p1 + i) = Some v).
    { rewrite E1, nth_error_app2 by lia. replace (length p1 + i - length p1) with i by lia. rewrite nth_error_app1 by lia. assumption. }
    assert (k = length p1 + i) by (eapply (proj1 (NoDup_nth_error path)); [assumption|apply nth_error_Some; congruence|congruence]). subst k.
    assert (Q : nth_error (map tk_str ts) (length p1 + i) = Some s).
    { rewrite E2, nth_error_app2 by lia. replace (length p1 + i - length s1) with i by lia. rewrite nth_error_app1 by lia. assumption. }
    rewrite (map_nth_error _ _ _ K1) in Q. congruence.
  Qed.

  Lemma anchor_token : forall wp i v, In wp W -> nth_error vs i = Some v -> exists t, In (v, [t]) (snd wp).
  Proof.
    intros wp i v Hw Hv. destruct (AN wp Hw) as [ts [path [E [L [p1 [p2 [s1 [s2 [E1 [E2 [L1 _]]]]]]]]]]].
    assert (Li : i < length vs) by (apply nth_error_Some; congruence).
    assert (P : nth_error path (length p1 + i) = Some v).
    { rewrite E1, nth_error_app2 by lia. replace (length p1 + i - length p1) with i by lia. rewrite nth_error_app1 by lia. assumption. }
    destruct (nth_error_lt_ex ts (length p1 + i)) as [t Ht]; [rewrite <- L; apply nth_error_Some; congruence|].
    exists t. rewrite E. apply steps_nth; [assumption|]. eauto.
  Qed.

  Lemma anchor_on : forall i v s, nth_error vs i = Some v -> nth_error u i = Some s -> on_vertex W v s.
  Proof.
    intros i v s Hv Hs. pose proof (hd_In W NW) as Hw. destruct (anchor_token _ _ _ Hw Hv) as [t Ht]. exists (hd ([], []) W), t.
    split; [assumption|]. split; [assumption|]. eapply anchor_word; eassumption.
  Qed.

  Lemma anchor_vertex : forall i v, nth_error vs i = Some v -> In v (vertices g) /\ v <> v_start /\ v <> v_end /\ 1 <= rk v < rk v_end.
  Proof.
    intros i v Hv. pose proof (hd_In W NW) as Hw. destruct (anchor_token _ _ _ Hw Hv) as [t Ht].
    destruct (gi_on _ _ GI _ _ _ Hw Ht) as [A _]. pose proof (gi_simple _ _ GI _ Hw) as N. apply (in_map fst) in Ht. cbn [fst] in Ht.
    assert (B : v <> v_start). { intros ->. unfold chain in N. inversion N as [|? ? N1 _]. apply N1. apply in_or_app. left. assumption. }
    assert (C : v <> v_end). { intros ->. apply (chain_end g W _ GI Hw Ht). }
    split; [assumption|]. split; [assumption|]. split; [assumption|]. split; [|apply (rank_le_end g W rk mm l GI RO NW); assumption].
    destruct (rk v) eqn:R; [|lia]. apply (rank_zero g W rk mm l GI RO NW v A) in R. congruence.
  Qed.

  Lemma anchor_single : forall wp v ts, In wp W -> In (v, ts) (snd wp) -> exists t, ts = [t].
  Proof.
    intros wp v ts Hw Ht. destruct (AN wp Hw) as [ts' [path [E _]]]. rewrite E in Ht. apply steps_single in Ht as [t [-> _]]. eauto.
  Qed.

  Lemma anchored_column : forall i v s, nth_error vs i = Some v -> nth_error u i = Some s -> (forall w, In w (vertices g) -> rk w = rk v -> w = v) ->
    agreed_column (the_table W rk mm l (map fst W)) (rk v - 1) s.
  Proof.
    intros i v s Hv Hs U. destruct (anchor_vertex i v Hv) as [Vv [_ [_ [R1 R2]]]].
    destruct (unique_column g W rk mm l v GI NW RO) as [col [C1 [C2 C3]]]; [|lia|assumption|assumption|].
    - intros wp Hw. destruct (anchor_token wp i v Hw Hv) as [t Ht]. apply (in_map fst) in Ht. exact Ht.
    - exists col. split; [assumption|]. split; [assumption|]. intros r Hr. destruct (C3 r Hr) as [wp [ts [Hw [Ht E]]]].
      destruct (anchor_single wp v ts Hw Ht) as [t ->]. exists t. split; [assumption|]. eapply anchor_word; eassumption.
  Qed.
End Anchor.

(** ** A common ending *)
Lemma nth_app_r : forall {A} (l1 l2 : list A) i, nth_error (l1 ++ l2) (length l1 + i) = nth_error l2 i.
Proof. intros. rewrite nth_error_app2 by lia. f_equal. lia. Qed.

Lemma end_step : forall g W rk mm l vs u ts path M ms s1, graph_of g W -> W <> [] -> rank_ok g rk mm l ->
  all_anchored false true W vs u -> length vs = length u -> optimal_step None g rk W ts path M ms ->
  map tk_str ts = s1 ++ u -> (forall s, In s u -> not_doubled s (map tk_str ts)) -> exists p1, path = p1 ++ vs.
Proof.
  intros g W rk mm l vs u ts path M ms s1 GI NW RO AN LV OS ET ND.
  assert (T : forall wp, In wp W -> exists pre, map fst (snd wp) = pre ++ vs).
  { intros wp Hw. destruct (AN wp Hw) as [ts' [path' [E [L [p1 [p2 [? [? [E1 [_ [_ [_ E2]]]]]]]]]]]]. exists p1. rewrite E, steps_fst by assumption.
    rewrite E1, (E2 eq_refl), app_nil_r. reflexivity. }
  pose proof (tail_at g W rk mm l GI NW RO vs T) as TA. pose proof (tail_only g W rk mm l GI NW RO vs T) as TU.
  pose proof (anchor_vertex g W rk mm l GI NW RO false true vs u AN LV) as AV.
  destruct OS as [OL OSn OC OR OT OB OA OM OF]. set (n := length u) in *.
  assert (LT : length ts = length s1 + n) by (rewrite <- (map_length tk_str), ET, app_length; reflexivity).
  assert (LR : n <= rk v_end - 1).
  { destruct n as [|n']; [lia|]. destruct (nth_error_lt_ex vs 0) as [v Hv]; [lia|]. pose proof (TA _ _ Hv). destruct (AV _ _ Hv) as [_ [_ [_ ?]]]. lia. }
  assert (MT : forall i, i < n -> M (length ts - i) (rk v_end - 1 - i) = true).
  { intros i Hi. destruct (nth_error_lt_ex ts (length ts - i - 1)) as [t Ht]; [lia|]. destruct (nth_error_lt_ex vs (n - 1 - i)) as [v Hv]; [lia|].
    destruct (AV _ _ Hv) as [V1 _]. pose proof (TA _ _ Hv).
    apply (OC eq_refl _ _ t v); [lia|assumption|assumption|lia|].
    apply (anchor_on g W GI NW false true vs u AN LV (n - 1 - i) v _ Hv).
    pose proof (map_nth_error tk_str _ _ Ht) as Q. rewrite ET in Q. replace (length ts - i - 1) with (length s1 + (n - 1 - i)) in Q by lia.
    rewrite nth_app_r in Q. assumption. }
  assert (NDB : forall i y, i < n -> M y (rk v_end - 1 - i) && M (S y) (rk v_end - 1 - i) = false).
  { intros i y Hi. destruct (M y _ && M (S y) _) eqn:E; [|reflexivity]. exfalso. apply andb_true_iff in E as [E1 E2].
    assert (X : forall y, M y (rk v_end - 1 - i) = true -> 1 <= y /\ nth_error (map tk_str ts) (y - 1) = nth_error u (n - 1 - i)).
    { intros z Hz. destruct (OSn _ _ Hz) as [t [v [Z1 [Z2 [Z3 [Z4 [wp [t1 [O1 [O2 O3]]]]]]]]]]. split; [assumption|].
      assert (v <> v_end) by (intros ->; lia). pose proof (TU v Z3 H ltac:(lia)) as Q. replace (rk v + length vs - rk v_end) with (n - 1 - i) in Q by lia.
      destruct (nth_error_lt_ex u (n - 1 - i)) as [s Hs]; [unfold n in *; lia|].
      rewrite (map_nth_error _ _ _ Z2), Hs, <- O3. f_equal. apply (anchor_word g W GI false true vs u AN LV wp _ v t1 s O1 Q Hs O2). }
    destruct (X _ E1) as [Y1 X1]. destruct (X _ E2) as [_ X2]. destruct (nth_error_lt_ex u (n - 1 - i)) as [s Hs]; [unfold n in *; lia|].
    rewrite Hs in X1, X2. apply (ND s (nth_error_In _ _ Hs) (y - 1) X1). replace (S (y - 1)) with (S y - 1) by lia. assumption. }
  destruct (last_pairs M n ms OF) as [ms0 E]; [lia|lia|rewrite OR, OT; assumption|rewrite OR; intros; apply NDB; assumption|].
  subst ms. destruct (pairs_walk M n ms0) as [W1 [W2 [W3 W4]]]. exists (firstn (length s1) path). apply tail_ext; [lia|].
  intros j Hj. set (i := S j). assert (MI : M (at_token (walk M ms0) + i) (at_rank (walk M ms0) + i) = true).
  { specialize (MT (n - i)). replace (at_token (walk M ms0) + i) with (length ts - (n - i)) by (unfold i; lia).
    replace (at_rank (walk M ms0) + i) with (rk v_end - 1 - (n - i)) by (unfold i; lia). apply MT. unfold i. lia. }
  destruct (OM _ _ (W4 i ltac:(unfold i; lia) MI)) as [y' [v [_ [_ [_ [B1 [B2 [B3 [B4 _]]]]]]]]].
  apply W3 in B1; [|unfold i; lia]. assert (y' = at_token (walk M ms0) + i) by lia. subst y'.
  replace (at_token (walk M ms0) + i - 1) with (length s1 + j) in B2 by (unfold i; lia). rewrite B2. symmetry.
  assert (v <> v_end) by (intros ->; unfold i in *; lia). pose proof (TU v B3 H ltac:(unfold i in *; lia)) as Q. rewrite <- Q. f_equal. unfold i in *. lia.
Qed.

(** ** A common beginning *)
Section Begin.
  Variable M : nat -> nat -> bool.
  Notation run := (@fold_left walker move (step M)).

  Lemma run_shift : forall r w1 w2, at_rank w1 = at_rank w2 -> at_token w1 = at_token w2 ->
    at_rank (run r w1) = at_rank (run r w2) /\ at_token (run r w1) = at_token (run r w2) /\
    (points (run r w1) - points w1 = points (run r w2) - points w2)%Z.
  Proof.
    induction r as [|m r IH]; intros w1 w2 A B; cbn [fold_left]; [repeat split; auto; lia|].
    destruct (IH (step M w1 m) (step M w2 m)) as [C [D E]]; [destruct m; cbn [step at_rank]; congruence|destruct m; cbn [step at_token]; congruence|].
    split; [assumption|]. split; [assumption|].
    assert (F : (points (step M w1 m) - points w1 = points (step M w2 m) - points w2)%Z)
      by (unfold step; cbn [points]; rewrite A, B; destruct (is_hit M m _ _); lia). lia.
  Qed.

  Lemma omits : forall a w, at_rank (run (repeat Omit a) w) = at_rank w + a /\ at_token (run (repeat Omit a) w) = at_token w /\
    points (run (repeat Omit a) w) = (points w - Z.of_nat a)%Z.
  Proof.
    induction a as [|a IH]; intros w; cbn [repeat fold_left]; [repeat split; lia|].
    destruct (IH (step M w Omit)) as [A [B C]]. cbn [step at_rank at_token points is_hit] in *. repeat split; lia.
  Qed.
  Lemma adds : forall a w, at_rank (run (repeat Add a) w) = at_rank w /\ at_token (run (repeat Add a) w) = at_token w + a /\
    (points w - Z.of_nat a <= points (run (repeat Add a) w))%Z /\
    ((forall y, at_token w < y -> M y (at_rank w) = false) -> points (run (repeat Add a) w) = (points w - Z.of_nat a)%Z).
  Proof.
    induction a as [|a IH]; intros w; cbn [repeat fold_left]; [repeat split; intros; lia|].
    destruct (IH (step M w Add)) as [A [B [C D]]]. unfold step in A, B, C, D |- *. cbn [at_rank at_token points is_hit] in *. repeat split; try lia.
    - destruct (_ && _); lia.
    - intros F. rewrite D by (intros y Hy; apply F; lia). rewrite (F (S (at_token w))) by lia. rewrite andb_false_r. lia.
  Qed.

  Lemma leading : forall (m0 : move) (r : list move), exists a, r = repeat m0 a \/ exists m r', r = repeat m0 a ++ m :: r' /\ m <> m0.
  Proof.
    intros m0 r. induction r as [|m r IH]; [exists 0; left; reflexivity|].
    assert (D : {m = m0} + {m <> m0}) by decide equality. destruct D as [->|D].
    - destruct IH as [a [->|[m [r' [-> N]]]]]; exists (S a); [left; reflexivity|right]. exists m, r'. split; [reflexivity|assumption].
    - exists 0. right. exists m, r. split; [reflexivity|assumption].
  Qed.

  Variable n : nat.
  Hypothesis DG : forall i, 1 <= i <= n -> M i i = true.
  Hypothesis OFF : forall y x, M y x = true -> 1 <= y /\ 1 <= x /\ (y <= n \/ x <= n -> y = x).

  Lemma first_pairs : forall k ms, k <= n -> n <= at_rank (walk M ms) -> n <= at_token (walk M ms) ->
    (forall ms', at_rank (walk M ms') = at_rank (walk M ms) -> at_token (walk M ms') = at_token (walk M ms) -> (points (walk M ms') <= points (walk M ms))%Z) ->
    exists r, ms = repeat Pair k ++ r.
  Proof.
    induction k as [|k IH]; intros ms Lk LR LT BEST; [exists ms; reflexivity|].
    destruct (IH ms) as [r E]; try lia; [assumption|]. destruct (diag_at M k) as [K1 K2]. set (w0 := walk M (repeat Pair k)) in *.
    assert (WA : forall q, walk M (repeat Pair k ++ q) = run q w0) by (intros q; unfold w0, walk; apply fold_left_app).
    assert (NB : forall q r2 q', r = q ++ r2 -> at_rank (run q' w0) = at_rank (run q w0) -> at_token (run q' w0) = at_token (run q w0) ->
      (points (run q' w0) <= points (run q w0))%Z).
    { intros q r2 q' Er A B. specialize (BEST (repeat Pair k ++ q' ++ r2)). rewrite E, Er, !WA, !fold_left_app in BEST.
      destruct (run_shift r2 _ _ A B) as [C [D F]]. specialize (BEST C D). lia. }
    rewrite E, WA in LR, LT. rewrite E in *. clear E ms.
    assert (P0 : run [Pair] w0 = step M w0 Pair) by reflexivity.
    assert (PP : points (step M w0 Pair) = (points w0 + 1)%Z) by (cbn [step points is_hit]; rewrite K1, K2, DG by lia; reflexivity).
    assert (PR : at_rank (step M w0 Pair) = S k) by (cbn [step at_rank]; congruence).
    assert (PT : at_token (step M w0 Pair) = S k) by (cbn [step at_token]; congruence).
    assert (MF : forall y x, (y <= n \/ x <= n) -> y <> x -> M y x = false).
    { intros y x O N. destruct (M y x) eqn:Q; [|reflexivity]. apply OFF in Q as [_ [_ Q]]. elim N. apply Q. assumption. }
    destruct r as [|m r]; [exfalso; cbn in LR; lia|]. destruct m.
    - exists r. rewrite repeat_snoc, <- app_assoc. reflexivity.
    - exfalso. destruct (leading Omit (Omit :: r)) as [a [Q|[m [r' [Q N]]]]].
      + rewrite Q in LT. destruct (omits a w0) as [_ [T _]]. lia.
      + destruct a as [|a]; [injection Q as Q1 _; congruence|].
        assert (EQ : Omit :: r = (repeat Omit (S a) ++ [m]) ++ r') by (rewrite <- app_assoc; exact Q).
        destruct (omits (S a) w0) as [R1 [R2 R3]]. destruct m; [|congruence|].
        * assert (X := NB _ _ (Pair :: repeat Omit (S a)) EQ).
          destruct (omits (S a) (step M w0 Pair)) as [S1 [S2 S3]]. rewrite fold_left_app in X. cbn [fold_left] in X.
          set (wq := run (repeat Omit (S a)) w0) in *. set (wp := run (repeat Omit (S a)) (step M w0 Pair)) in *. clearbody wq wp.
          rewrite PP, ?PR, ?PT in *. unfold step in X. cbn [at_rank at_token points is_hit] in X. rewrite MF in X by lia. specialize (X ltac:(lia) ltac:(lia)). lia.
        * assert (X := NB _ _ (Pair :: repeat Omit a) EQ).
          destruct (omits a (step M w0 Pair)) as [S1 [S2 S3]]. rewrite fold_left_app in X. cbn [fold_left] in X.
          set (wq := run (repeat Omit (S a)) w0) in *. set (wp := run (repeat Omit a) (step M w0 Pair)) in *. clearbody wq wp.
          rewrite PP, ?PR, ?PT in *. unfold step in X. cbn [at_rank at_token points is_hit] in X. rewrite (MF (S (at_token wq) - 1)) in X by lia; cbn [andb] in X. specialize (X ltac:(lia) ltac:(lia)). lia.
    - exfalso. assert (NA : forall y, at_token w0 < y -> M y (at_rank w0) = false) by (intros y Hy; apply MF; lia).
      destruct (leading Add (Add :: r)) as [a [Q|[m [r' [Q N]]]]].
      + rewrite Q in LR. destruct (adds a w0) as [T _]. lia.
      + destruct a as [|a]; [injection Q as Q1 _; congruence|].
        assert (EQ : Add :: r = (repeat Add (S a) ++ [m]) ++ r') by (rewrite <- app_assoc; exact Q).
        destruct (adds (S a) w0) as [R1 [R2 [_ R3]]]. specialize (R3 NA). destruct m; [| |congruence].
        * assert (X := NB _ _ (Pair :: repeat Add (S a)) EQ).
          destruct (adds (S a) (step M w0 Pair)) as [S1 [S2 [S3 _]]]. rewrite fold_left_app in X. cbn [fold_left] in X.
          set (wq := run (repeat Add (S a)) w0) in *. set (wp := run (repeat Add (S a)) (step M w0 Pair)) in *. clearbody wq wp.
          rewrite PP, ?PR, ?PT in *. unfold step in X. cbn [at_rank at_token points is_hit] in X. rewrite MF in X by lia. specialize (X ltac:(lia) ltac:(lia)). lia.
        * assert (X := NB _ _ (Pair :: repeat Add a) EQ).
          destruct (adds a (step M w0 Pair)) as [S1 [S2 [S3 _]]]. rewrite fold_left_app in X. cbn [fold_left] in X.
          set (wq := run (repeat Add (S a)) w0) in *. set (wp := run (repeat Add a) (step M w0 Pair)) in *. clearbody wq wp.
          rewrite PP, ?PR, ?PT in *. unfold step in X. cbn [at_rank at_token points is_hit] in X. idtac. specialize (X ltac:(lia) ltac:(lia)). lia.
  Qed.
End Begin.

Lemma met_more : forall M b a p, In p (met (walk M a)) -> In p (met (walk M (a ++ b))).
Proof.
  intros M. induction b as [|m b IH] using rev_ind; intros a p H; [rewrite app_nil_r; assumption|].
  rewrite app_assoc, walk_snoc. unfold step. cbn [met]. apply IH in H. destruct (is_hit M m _ _); [apply in_or_app; left|]; assumption.
Qed.

Lemma head_ext : forall {A} (l vs : list A), length vs <= length l -> (forall j, j < length vs -> nth_error l j = nth_error vs j) -> l = vs ++ skipn (length vs) l.
Proof.
  intros A l vs L H. rewrite <- (firstn_skipn (length vs) l) at 1. f_equal. apply list_ext. intros i.
  destruct (le_lt_dec (length vs) i) as [Li|Li].
  - rewrite !(proj2 (nth_error_None _ _)); [reflexivity|assumption|]. rewrite firstn_length_le; assumption.
  - rewrite nth_firstn by assumption. apply H. assumption.
Qed.

Lemma head_step : forall g W rk mm l vs u ts path M ms s2, graph_of g W -> W <> [] -> rank_ok g rk mm l ->
  all_anchored true false W vs u -> length vs = length u -> optimal_step None g rk W ts path M ms ->
  map tk_str ts = u ++ s2 -> (forall s, In s u -> unrepeated s (map tk_str ts)) ->
  (forall wp v t i s, In wp W -> In (v, [t]) (snd wp) -> tk_str t = s -> nth_error u i = Some s -> nth_error vs i = Some v) ->
  exists p2, path = vs ++ p2.
Proof.
  intros g W rk mm l vs u ts path M ms s2 GI NW RO AN LV OS ET UR HU.
  assert (T : forall wp, In wp W -> exists post, map fst (snd wp) = vs ++ post).
  { intros wp Hw. destruct (AN wp Hw) as [ts' [path' [E [L [p1 [p2 [? [? [E1 [_ [_ [E2 _]]]]]]]]]]]]. exists p2. rewrite E, steps_fst by assumption.
    rewrite E1, (E2 eq_refl). reflexivity. }
  pose proof (head_rank g W rk mm l GI NW RO vs T) as TA. pose proof (head_only g W rk mm l GI NW RO vs T) as TU.
  pose proof (anchor_vertex g W rk mm l GI NW RO true false vs u AN LV) as AV.
  destruct OS as [OL OSn OC OR OT OB OA OM OF]. set (n := length u) in *.
  assert (LT : length ts = n + length s2) by (rewrite <- (map_length tk_str), ET, app_length; reflexivity).
  assert (LR : n <= rk v_end - 1).
  { destruct n as [|n']; [lia|]. destruct (nth_error_lt_ex vs n') as [v Hv]; [lia|]. pose proof (TA (S n') v Hv). destruct (AV _ _ Hv) as [_ [_ [_ ?]]]. lia. }
  assert (WD : forall i s, nth_error u i = Some s -> nth_error (map tk_str ts) i = Some s).
  { intros i s Hs. rewrite ET, nth_error_app1; [assumption|]. apply nth_error_Some. congruence. }
  assert (DG : forall i, 1 <= i <= n -> M i i = true).
  { intros i Hi. destruct (nth_error_lt_ex ts (i - 1)) as [t Ht]; [lia|]. destruct (nth_error_lt_ex vs (i - 1)) as [v Hv]; [lia|].
    destruct (nth_error_lt_ex u (i - 1)) as [s Hs]; [unfold n in *; lia|].
    destruct (AV _ _ Hv) as [V1 _]. apply (OC eq_refl _ _ t v); [lia|assumption|assumption| |].
    - apply TA. destruct i as [|i]; [lia|]. cbn [nth_error]. replace (S i - 1) with i in Hv by lia. assumption.
    - apply (anchor_on g W GI NW true false vs u AN LV (i - 1) v _ Hv). pose proof (WD _ _ Hs) as Q. rewrite (map_nth_error _ _ _ Ht) in Q. congruence. }
  assert (OFF : forall y x, M y x = true -> 1 <= y /\ 1 <= x /\ (y <= n \/ x <= n -> y = x)).
  { intros y x H. destruct (OSn _ _ H) as [t [v [Z1 [Z2 [Z3 [Z4 [wp [t1 [O1 [O2 O3]]]]]]]]]]. split; [assumption|].
    assert (X1 : 1 <= x).
    { destruct x as [|x]; [|lia]. apply (rank_zero g W rk mm l GI RO NW v Z3) in Z4. subst v. exfalso.
      pose proof (gi_simple _ _ GI wp O1) as N. unfold chain in N. inversion N as [|? ? N1 _]. apply N1. apply in_or_app. left. apply (in_map fst) in O2. exact O2. }
    split; [assumption|]. intros O.
    assert (Y : y <= n -> y = x).
    { intros Ly. destruct (nth_error_lt_ex u (y - 1)) as [s Hs]; [unfold n in *; lia|].
      pose proof (WD _ _ Hs) as Q. rewrite (map_nth_error _ _ _ Z2) in Q. injection Q as Q.
      assert (Hv : nth_error vs (y - 1) = Some v) by (apply (HU wp v t1 (y - 1) s O1 O2); congruence).
      rewrite <- Z4. symmetry. apply TA. destruct y as [|y]; [lia|]. cbn [nth_error]. replace (S y - 1) with y in Hv by lia. assumption. }
    destruct (le_lt_dec y n) as [Ly|Ly]; [apply Y; assumption|]. destruct O as [O|O]; [lia|]. exfalso.
    pose proof (TU v Z3 ltac:(lia)) as Hv. rewrite Z4 in Hv. destruct x as [|x]; [lia|]. cbn [nth_error] in Hv.
    destruct (nth_error_lt_ex u x) as [s Hs]; [unfold n in *; lia|].
    pose proof (anchor_word g W GI true false vs u AN LV wp x v t1 s O1 Hv Hs O2) as Q.
    assert (y - 1 = x); [|lia]. apply (UR s (nth_error_In _ _ Hs)); [|apply WD; assumption]. rewrite (map_nth_error _ _ _ Z2). congruence. }
  destruct (first_pairs M n DG OFF n ms) as [r E]; [lia|lia|lia|rewrite OR, OT; exact OB|]. exists (skipn (length vs) path). apply head_ext; [lia|].
  intros j Hj. destruct (diag_points M n DG) as [_ DM].
  destruct (OM (S j) (S j)) as [y' [v [_ [_ [_ [B1 [B2 [B3 [B4 _]]]]]]]]].
  { rewrite E. apply met_more. rewrite DM. apply in_map_iff. exists (S j). split; [reflexivity|]. apply in_seq. lia. }
  apply met_bounds in B1 as [_ [_ B1]]. destruct (OFF _ _ B1) as [_ [_ B5]]. rewrite B5 in B2 by lia. replace (S j - 1) with j in B2 by lia.
  rewrite B2. symmetry. pose proof (TU v B3 ltac:(lia)) as Q. rewrite B4 in Q. exact Q.
Qed.

(** ** All witnesses *)
Lemma anchor_stage : forall topo c h e u k g, topo_ok topo -> good_sigla c ->
  (forall ti iw, index_ok c ti -> In iw (ti_wits ti) ->
    exists s1 s2, map tk_str (iw_toks iw) = s1 ++ u ++ s2 /\ (h = true -> s1 = []) /\ (e = true -> s2 = [])) ->
  (forall ti g W rk mm l vs iw path M ms, index_ok c ti -> In iw (tl (ti_wits ti)) ->
    (forall wp, In wp W -> exists iw' p', In iw' (ti_wits ti) /\ length p' = length (iw_toks iw') /\ snd wp = steps (iw_toks iw') p') ->
    graph_of g W -> W <> [] -> rank_ok g rk mm l -> all_anchored h e W vs u -> length vs = length u ->
    optimal_step None g rk W (iw_toks iw) path M ms -> anchored h e (iw_toks iw) path vs u) ->
  stage topo None c k = Ok g ->
  exists W vs, graph_of g W /\ W <> [] /\ all_anchored h e W vs u /\ length vs = length u /\ map fst W = firstn (S k) (map w_sigil c).
Proof.
  intros topo c h e u k g TO [ND NE] HW STEP H. unfold stage in H. apply bind_ok in H as [ti [P H]].
  pose proof (prepare_index_ok c ti ND P) as IX. pose proof (prepare_text_ok c ti P) as TX.
  assert (SG : map iw_sigil (ti_wits ti) = map w_sigil c) by (rewrite (ix_wits _ _ IX); apply stamped_sigla).
  destruct (ti_wits ti) as [|iw0 rest] eqn:E; [discriminate|]. apply bind_ok in H as [st0 [F H]]. apply bind_ok in H as [st' [A H]]. injection H as <-.
  destruct (first_step_inv c ti None IX NE iw0 rest E) as [st1 [p [F1 F2]]]. rewrite F1 in F. injection F as <-.
  destruct (HW ti iw0 IX) as [s1 [s2 [E1 [H1 H2]]]]; [rewrite E; left; reflexivity|].
  assert (PL : exists p0, length p0 = length (iw_toks iw0) /\ steps (iw_toks iw0) p = steps (iw_toks iw0) p0).
  { pose proof (al_paths _ _ _ _ _ F2) as FP. inversion FP as [|? ? ? ? [_ [p0 [L0 E0]]] _]; subst. eauto. }
  destruct PL as [p0 [L0 E0]]. rewrite E0 in F2.
  assert (LP : length p0 = length s1 + (length u + length s2)).
  { rewrite L0, <- (map_length tk_str), E1, !app_length. lia. }
  set (vs := firstn (length u) (skipn (length s1) p0)).
  assert (LV : length vs = length u) by (unfold vs; rewrite firstn_length_le; [reflexivity|rewrite skipn_length; lia]).
  assert (AN0 : anchored h e (iw_toks iw0) p0 vs u).
  { exists (firstn (length s1) p0), (skipn (length u) (skipn (length s1) p0)), s1, s2. split.
    - unfold vs. rewrite firstn_skipn, firstn_skipn. reflexivity.
    - split; [assumption|]. split; [apply firstn_length_le; lia|]. split.
      + intros Q. rewrite (H1 Q). reflexivity.
      + intros Q. apply length_zero_iff_nil. rewrite !skipn_length. rewrite (H2 Q) in LP. cbn [length] in LP. lia. }
  assert (G : forall k rest done st W st', ti_wits ti = done ++ rest -> done <> [] -> W <> [] -> al_inv None ti done st W -> all_anchored h e W vs u ->
    foldM (next_step topo None false ti) (firstn k rest) st = Ok st' ->
    exists W', al_inv None ti (done ++ firstn k rest) st' W' /\ W' <> [] /\ all_anchored h e W' vs u).
  { clear - IX TX NE TO LV STEP. induction k as [|k IH]; intros rest done st W st' DW ND NW AL AN H.
    - cbn in H. injection H as <-. exists W. cbn [firstn]. rewrite app_nil_r. auto.
    - destruct rest as [|iw rest].
      + cbn in H. injection H as <-. exists W. cbn [firstn]. rewrite app_nil_r. auto.
      + cbn [firstn foldM] in H. apply bind_ok in H as [st1 [H1 H2]].
        destruct (step_optimal c ti None IX TX NE topo TO done iw rest st W st1 DW NW AL H1) as [rk [mm [l [path [M [ms [RO [AL' OS]]]]]]]].
        pose proof (al_graph _ _ _ _ _ AL) as GI. pose proof (os_len _ _ _ _ _ _ _ _ OS) as OL.
        assert (AP : anchored h e (iw_toks iw) path vs u).
        { apply (STEP ti (a_graph st) W rk mm l vs iw path M ms IX); auto.
          - rewrite DW. destruct done as [|d done]; [congruence|]. cbn [app tl]. apply in_or_app. right. left. reflexivity.
          - intros wp Hw. destruct (Forall2_In_r _ _ _ _ (al_paths _ _ _ _ _ AL) Hw) as [iw' [D1 [D2 [p' [D3 D4]]]]]. exists iw', p'.
            split; [rewrite DW; apply in_or_app; left; assumption|]. auto. }
        replace (done ++ iw :: rest) with ((done ++ [iw]) ++ rest) in DW by (rewrite <- app_assoc; reflexivity). cbn [firstn].
        replace (done ++ iw :: firstn k rest) with ((done ++ [iw]) ++ firstn k rest) by (rewrite <- app_assoc; reflexivity).
        apply (IH rest (done ++ [iw]) st1 _ st' DW) in AL'; [assumption|destruct done; discriminate|destruct W; discriminate| |assumption].
        intros wp Hw. apply in_app_or in Hw as [Hw|[<-|[]]]; [apply AN; assumption|]. exists (iw_toks iw), path. auto. }
  destruct (G k rest [iw0] st1 [(iw_sigil iw0, steps (iw_toks iw0) p0)] st' E) as [W [AL [NW AN]]]; try assumption; [discriminate|discriminate| |].
  { intros wp [<-|[]]. exists (iw_toks iw0), p0. cbn [snd]. auto. }
  exists W, vs. split; [apply (al_graph _ _ _ _ _ AL)|]. split; [assumption|]. split; [assumption|]. split; [assumption|].
  rewrite <- SG. cbn [map firstn]. rewrite firstn_map.
  assert (PS : forall iws W, Forall2 path_for iws W -> map fst W = map iw_sigil iws).
  { clear. intros iws W F. induction F as [|iw wp iws W [H _] F IH]; [reflexivity|]. cbn [map]. congruence. }
  rewrite (PS _ _ (al_paths _ _ _ _ _ AL)). reflexivity.
Qed.

(** ** The graph of a collation *)
Lemma wit_of : forall c ti iw, index_ok c ti -> In iw (ti_wits ti) -> exists w, In w c /\ map tk_str (iw_toks iw) = map t0_str (w_toks w).
Proof.
  intros c ti iw IX Hiw. rewrite (ix_wits _ _ IX) in Hiw.
  assert (ST : forall sg ts p, map tk_str (stamp sg p ts) = map t0_str ts).
  { clear. induction ts as [|t ts IH]; intros q; [reflexivity|]. cbn [stamp map]. f_equal. apply IH. }
  revert Hiw. generalize 0. clear IX. induction c as [|w c IH]; intros pos H; [destruct H|]. cbn [stamped] in H. destruct H as [<-|H].
  - exists w. split; [left; reflexivity|]. cbn [iw_toks]. apply ST.
  - destruct (IH _ H) as [w' [A B]]. exists w'. split; [right; assumption|assumption].
Qed.

Lemma wit_of_tl : forall c ti iw, index_ok c ti -> In iw (tl (ti_wits ti)) -> exists w, In w (tl c) /\ map tk_str (iw_toks iw) = map t0_str (w_toks w).
Proof.
  intros c ti iw IX Hiw. rewrite (ix_wits _ _ IX) in Hiw. destruct c as [|w0 c]; [destruct Hiw|]. cbn [stamped tl] in *.
  assert (ST : forall sg ts p, map tk_str (stamp sg p ts) = map t0_str ts).
  { clear. induction ts as [|t ts IH]; intros q; [reflexivity|]. cbn [stamp map]. f_equal. apply IH. }
  clear IX. revert Hiw. match goal with |- In _ (stamped ?p _) -> _ => generalize p end. induction c as [|w c IH]; intros pos H; [destruct H|]. cbn [stamped] in H. destruct H as [<-|H].
  - exists w. split; [left; reflexivity|]. cbn [iw_toks]. apply ST.
  - destruct (IH _ H) as [w' [A B]]. exists w'. split; [right; assumption|assumption].
Qed.

Theorem common_end_stage : forall topo c u k g, topo_ok topo -> good_sigla c ->
  (forall w, In w c -> exists p, map t0_str (w_toks w) = p ++ u) ->
  (forall w s, In w (tl c) -> In s u -> not_doubled s (map t0_str (w_toks w))) ->
  stage topo None c k = Ok g ->
  exists W vs, graph_of g W /\ W <> [] /\ all_anchored false true W vs u /\ length vs = length u /\ map fst W = firstn (S k) (map w_sigil c).
Proof.
  intros topo c u k g TO GS HU ND H. apply (anchor_stage topo c false true u k g TO GS); [| |assumption].
  - intros ti iw IX Hi. destruct (wit_of c ti iw IX Hi) as [w [Hw E]]. destruct (HU w Hw) as [p Ep]. exists p, []. rewrite E, Ep, app_nil_r. split; [reflexivity|]. split; [discriminate|reflexivity].
  - intros ti g' W rk mm l vs iw path M ms IX Hi HW GI NW RO AN LV OS. destruct (wit_of_tl c ti iw IX Hi) as [w [Hw E]].
    assert (Hw' : In w c) by (destruct c; [destruct Hw|right; assumption]). destruct (HU w Hw') as [p Ep].
    destruct (end_step g' W rk mm l vs u (iw_toks iw) path M ms p GI NW RO AN LV OS) as [p1 E1]; [congruence|intros s Hs; rewrite E; apply ND; assumption|].
    exists p1, [], p, []. rewrite !app_nil_r. split; [assumption|]. split; [congruence|]. split; [|split; [discriminate|reflexivity]].
    pose proof (os_len _ _ _ _ _ _ _ _ OS) as OL. rewrite E1, app_length, <- (map_length tk_str), E, Ep, app_length in OL. lia.
Qed.

Theorem common_start_stage : forall topo c u k g, topo_ok topo -> good_sigla c ->
  (forall w, In w c -> exists p, map t0_str (w_toks w) = u ++ p) ->
  (forall w s, In w c -> In s u -> unrepeated s (map t0_str (w_toks w))) ->
  stage topo None c k = Ok g ->
  exists W vs, graph_of g W /\ W <> [] /\ all_anchored true false W vs u /\ length vs = length u /\ map fst W = firstn (S k) (map w_sigil c).
Proof.
  intros topo c u k g TO GS HU ND H. apply (anchor_stage topo c true false u k g TO GS); [| |assumption].
  - intros ti iw IX Hi. destruct (wit_of c ti iw IX Hi) as [w [Hw E]]. destruct (HU w Hw) as [p Ep]. exists [], p. rewrite E, Ep. split; [reflexivity|]. split; [reflexivity|discriminate].
  - intros ti g' W rk mm l vs iw path M ms IX Hi HW GI NW RO AN LV OS. destruct (wit_of_tl c ti iw IX Hi) as [w [Hw E]].
    assert (Hw' : In w c) by (destruct c; [destruct Hw|right; assumption]). destruct (HU w Hw') as [p Ep].
    destruct (head_step g' W rk mm l vs u (iw_toks iw) path M ms p GI NW RO AN LV OS) as [p2 E2]; [congruence|intros s Hs; rewrite E; apply ND; assumption| |].
    + intros wp v t i s Hwp Ht Es Hs. destruct (HW wp Hwp) as [iw' [p' [I1 [I2 I3]]]]. destruct (wit_of c ti iw' IX I1) as [w' [Hw2 E']].
      destruct (AN wp Hwp) as [ts [pa [A1 [A2 [q1 [q2 [s1 [s2 [A3 [A4 [A5 [A6 _]]]]]]]]]]]]. specialize (A6 eq_refl). subst q1. destruct s1; [|discriminate]. cbn [app] in A3, A4.
      assert (TS : ts = iw_toks iw') by (rewrite <- (steps_tokens ts pa A2), <- (steps_tokens (iw_toks iw') p' I2); congruence). subst ts.
      rewrite A1 in Ht. apply steps_nth in Ht as [j [J1 J2]]; [|assumption].
      assert (Li : i < length u) by (apply nth_error_Some; congruence).
      assert (j = i).
      { apply (ND w' s Hw2 (nth_error_In _ _ Hs)); rewrite <- E'.
        - rewrite (map_nth_error _ _ _ J1). congruence.
        - rewrite A4, nth_error_app1 by assumption. assumption. }
      subst j. rewrite A3, nth_error_app1 in J2 by lia. assumption.
    + exists [], p2, [], p. split; [assumption|]. split; [cbn [app]; congruence|]. split; [reflexivity|]. split; [reflexivity|discriminate].
Qed.
