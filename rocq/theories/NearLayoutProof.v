(** The columns of two witnesses with near matching (C105). *)
From Verif Require Import Py TokenModel SuffixModel IndexModel GraphModel AlignModel TableModel NearModel ExportModel
  CollateModel Lib GraphSpec GraphProof MergeProof RankProof AlignerProof TableSpec TableProof AlignProof CollateProof CollateSpec ResultProof
  StageProof OutputProof IdentProof NearProof NearSpec NearBest NearTwoProof CommonProof DrawProof PairSpec PairProof NearTableSpec NearTableProof.
From Coq Require Import Permutation Relations Sorted QArith.
Open Scope list_scope.
Open Scope nat_scope.

Lemma standing_below : forall like p hi, p <= hi -> StronglySorted lt (standing like p hi) /\ (forall c, In c (standing like p hi) -> c < hi).
Proof.
  intros like. induction p as [|p IH]; intros hi L; cbn [standing]; [split; [constructor|intros c []]|].
  destruct (best_spec (like p) p hi L) as [A _]. destruct (IH (best (like p) p hi)) as [S1 S2]; [lia|]. split.
  - clear - S1 S2. induction S1 as [|a l S IH F]; cbn [app]; [repeat constructor|]. constructor.
    + apply IH. intros; apply S2; right; assumption.
    + apply Forall_app. split; [assumption|]. constructor; [apply S2; left; reflexivity|constructor].
  - intros c Hc. apply in_app_or in Hc as [Hc|[<-|[]]]; [apply S2 in Hc; lia|lia].
Qed.
Lemma sorted_nodup : forall l, StronglySorted lt l -> NoDup l.
Proof.
  induction 1 as [|a l S IH F]; constructor; [|assumption]. intros C. rewrite Forall_forall in F. apply F in C. lia.
Qed.

Lemma near_gap_length : forall l1 l2 i x j y, length (near_gap l1 l2 i x j y) = Nat.max (x - i) (y - j).
Proof.
  intros. unfold near_gap. destruct (x - i <=? y - j) eqn:E; rewrite map_length, seq_length; [apply Nat.leb_le in E|apply Nat.leb_gt in E]; lia.
Qed.
Lemma near_layout_length : forall l1 l2 P i j n m, length (near_layout l1 l2 i j n m P) = length (layout i j n m P).
Proof.
  induction P as [|[x y] P IH]; intros i j n m; cbn [near_layout layout].
  - rewrite near_gap_length, gap_length. reflexivity.
  - rewrite !app_length, near_gap_length, gap_length. cbn [length]. rewrite IH. reflexivity.
Qed.

Lemma standing_column : forall like p hi base k, p <= hi -> k < p -> exists c, c < hi /\ in_column c (standing like p hi) base = Some (base + k).
Proof.
  intros like p hi base k L K. destruct (standing_below like p hi L) as [S1 S2].
  destruct (nth_error_lt_ex (standing like p hi) k) as [c Hc]; [rewrite standing_length; assumption|]. exists c.
  split; [apply S2; apply nth_error_In in Hc; assumption|]. apply in_column_at; [apply sorted_nodup; assumption|assumption].
Qed.

Lemma near_gap_first : forall l1 l2 i x j y q, i <= q < x -> In (Some q) (map fst (near_gap l1 l2 i x j y)).
Proof.
  intros l1 l2 i x j y q H. unfold near_gap. destruct (x - i <=? y - j) eqn:E; rewrite map_map; cbn [fst].
  - apply Nat.leb_le in E. destruct (standing_column (fun k d => l1 (i + k) (j + d)) (x - i) (y - j) i (q - i) E) as [c [C1 C2]]; [lia|].
    apply in_map_iff. exists c. split; [rewrite C2; f_equal; lia|apply in_seq; lia].
  - apply Nat.leb_gt in E. apply in_map_iff. exists (q - i). split; [f_equal; lia|apply in_seq; lia].
Qed.
Lemma near_gap_second : forall l1 l2 i x j y q, j <= q < y -> In (Some q) (map snd (near_gap l1 l2 i x j y)).
Proof.
  intros l1 l2 i x j y q H. unfold near_gap. destruct (x - i <=? y - j) eqn:E; rewrite map_map; cbn [snd].
  - apply in_map_iff. exists (q - j). split; [f_equal; lia|apply in_seq; lia].
  - apply Nat.leb_gt in E. destruct (standing_column (fun k d => l2 (j + k) (i + d)) (y - j) (x - i) j (q - j)) as [c [C1 C2]]; [lia|lia|].
    apply in_map_iff. exists c. split; [rewrite C2; f_equal; lia|apply in_seq; lia].
Qed.
Lemma near_first : forall l1 l2 P i j n m x, StronglySorted up P -> (forall x y, In (x, y) P -> i <= x < n /\ j <= y < m) ->
  i <= x < n -> In (Some x) (map fst (near_layout l1 l2 i j n m P)).
Proof.
  intros l1 l2. induction P as [|[x0 y0] P IH]; intros i j n m x ST IN H; cbn [near_layout]; [apply near_gap_first; assumption|].
  rewrite map_app. cbn [map fst]. apply in_or_app. destruct (IN x0 y0 (or_introl eq_refl)) as [A B]. inversion ST as [|? ? ST1 ST2]; subst. rewrite Forall_forall in ST2.
  destruct (lt_eq_lt_dec x x0) as [[L|L]|L]; [left; apply near_gap_first; lia|right; left; congruence|right; right].
  apply IH; [assumption| |lia]. intros x' y' Q. pose proof (ST2 _ Q) as U. unfold up in U. cbn [fst snd] in U. pose proof (IN x' y' (or_intror Q)). lia.
Qed.
Lemma near_second : forall l1 l2 P i j n m y, StronglySorted up P -> (forall x y, In (x, y) P -> i <= x < n /\ j <= y < m) ->
  j <= y < m -> In (Some y) (map snd (near_layout l1 l2 i j n m P)).
Proof.
  intros l1 l2. induction P as [|[x0 y0] P IH]; intros i j n m y ST IN H; cbn [near_layout]; [apply near_gap_second; assumption|].
  rewrite map_app. cbn [map snd]. apply in_or_app. destruct (IN x0 y0 (or_introl eq_refl)) as [A B]. inversion ST as [|? ? ST1 ST2]; subst. rewrite Forall_forall in ST2.
  destruct (lt_eq_lt_dec y y0) as [[L|L]|L]; [left; apply near_gap_second; lia|right; left; congruence|right; right].
  apply IH; [assumption| |lia]. intros x' y' Q. pose proof (ST2 _ Q) as U. unfold up in U. cbn [fst snd] in U. pose proof (IN x' y' (or_intror Q)). lia.
Qed.
Lemma near_pair : forall l1 l2 P i j n m x y, In (x, y) P -> In (Some x, Some y) (near_layout l1 l2 i j n m P).
Proof.
  intros l1 l2. induction P as [|[x0 y0] P IH]; intros i j n m x y H; [destruct H|]. cbn [near_layout]. apply in_or_app. right.
  destruct H as [H|H]; [left; congruence|right; apply IH; assumption].
Qed.

(** ** One gap *)
Section OneGap.
  Variables (g : graph) (rk : vid -> nat) (ratio : str -> str -> Q) (f : vid -> nat) (A B : list vid).
  Let LA := v_start :: A ++ [v_end].
  Let LB := v_start :: B ++ [v_end].
  Hypothesis NA : NoDup LA.
  Hypothesis EG : forall u v, edge g u v <-> In (u, v) (pairs LA) \/ In (u, v) (pairs LB).
  Hypothesis VG : forall x, pinned g rk x -> In x LA \/ In x LB.
  Hypothesis MA : forall i j u v, i < j -> nth_error LA i = Some u -> nth_error LA j = Some v -> rk u < rk v.
  Hypothesis MB : forall i j u v, i < j -> nth_error LB i = Some u -> nth_error LB j = Some v -> rk u < rk v.
  Hypothesis FP : forall x, pinned g rk x -> f x = rk x.
  Hypothesis FS : forall src v, ~ pinned g rk src -> edge g src v -> settled g rk ratio f src v.

  Lemma down_pinned : forall (L : list vid) n i, (forall u v, In (u, v) (pairs L) -> edge g u v) ->
    (forall k u v, i <= k < i + n -> nth_error L k = Some u -> nth_error L (S k) = Some v -> rk v = S (rk u)) ->
    (exists v, nth_error L (i + n) = Some v /\ pinned g rk v) -> forall k u, i <= k <= i + n -> nth_error L k = Some u -> pinned g rk u.
  Proof.
    intros L n i HL HR [z [Z1 Z2]] k u K Hu.
    assert (G : forall d k u, k + d = i + n -> i <= k -> nth_error L k = Some u -> pinned g rk u).
    { induction d as [|d IH]; intros k' u' E K' Hu'; [replace k' with (i + n) in Hu' by lia; congruence|].
      assert (LL : i + n < length L) by (apply nth_error_Some; congruence).
      destruct (nth_error_lt_ex L (S k')) as [w Hw]; [lia|]. apply pin_step with w.
      - apply (IH (S k')); [lia|lia|assumption].
      - apply HL. apply (pairs_nth L k'); assumption.
      - apply (HR k'); [lia|assumption|assumption]. }
    apply (G (i + n - k) k u); [lia|lia|assumption].
  Qed.

  Lemma short_gap : forall like i j u x y v, nth_error LA i = Some u -> nth_error LB j = Some u -> i <= x -> j <= y ->
    x <= length A -> y <= length B -> nth_error LA (S x) = Some v -> nth_error LB (S y) = Some v ->
    (forall q w, i <= q < x -> nth_error A q = Some w -> ~ In w LB) ->
    (forall k, k < x - i -> exists w, nth_error A (i + k) = Some w /\ rk w = S (rk u) + k) ->
    (forall k, k < y - j -> exists w, nth_error B (j + k) = Some w /\ rk w = S (rk u) + k) ->
    rk v = S (rk u) + (y - j) -> x - i <= y - j -> pinned g rk v ->
    (forall a b va vb, nth_error A a = Some va -> nth_error B b = Some vb -> alike ratio g va vb = like a b) ->
    (forall c, c < y - j -> exists w, nth_error B (j + c) = Some w /\ f w = S (rk u) + c) /\
    (forall k c, nth_error (standing (fun k d => like (i + k) (j + d)) (x - i) (y - j)) k = Some c -> exists w, nth_error A (i + k) = Some w /\ f w = S (rk u) + c).
  Proof.
    intros like i j u x y v U1 U2 X Y LX LY V1 V2 NS RA RB RV SH PV LK.
    assert (NTA : forall q w, nth_error A q = Some w -> nth_error LA (S q) = Some w) by (intros; apply (a_nth A v_start v_end); assumption).
    assert (NTB : forall q w, nth_error B q = Some w -> nth_error LB (S q) = Some w) by (intros; apply (a_nth B v_start v_end); assumption).
    (* the ranks along the two stretches *)
    assert (ALA : forall k w, k < x - i -> nth_error LA (S (i + k)) = Some w -> rk w = S (rk u) + k).
    { intros k w K Hw. destruct (RA k K) as [w' [W1 W2]]. apply NTA in W1. congruence. }
    assert (ALB : forall k w, k < y - j -> nth_error LB (S (j + k)) = Some w -> rk w = S (rk u) + k).
    { intros k w K Hw. destruct (RB k K) as [w' [W1 W2]]. apply NTB in W1. congruence. }
    assert (PB : forall k w, j <= k <= S y -> nth_error LB k = Some w -> pinned g rk w).
    { intros k w K Hw. apply (down_pinned LB (S (y - j)) j) with (k := k); [intros a b Q; apply EG; right; assumption| | |lia|assumption].
      - intros k' a b K' Ha Hb.
        assert (Ra : rk a = rk u + (k' - j)).
        { destruct (Nat.eq_dec k' j) as [->|N]; [rewrite Nat.sub_diag; rewrite U2 in Ha; injection Ha as <-; lia|].
          rewrite (ALB (k' - j - 1) a); [lia|lia|]. replace (S (j + (k' - j - 1))) with k' by lia. assumption. }
        destruct (Nat.eq_dec k' y) as [->|N]; [rewrite V2 in Hb; injection Hb as <-; lia|].
        rewrite (ALB (k' - j) b); [lia|lia|]. replace (S (j + (k' - j))) with (S k') by lia. assumption.
      - exists v. replace (j + S (y - j)) with (S y) by lia. auto. }
    split.
    { intros c C. destruct (RB c C) as [w [W1 W2]]. exists w. split; [assumption|]. rewrite FP; [assumption|]. apply (PB (S (j + c))); [lia|apply NTB; assumption]. }
    destruct (Nat.eq_dec (x - i) (y - j)) as [EV|NV].
    { (* as long as each other *)
      rewrite <- EV, standing_even. intros k c H. assert (K : k < x - i) by (rewrite <- (seq_length (x - i) 0); apply nth_error_Some; congruence).
      rewrite nth_error_seq in H by assumption. injection H as <-. destruct (RA k K) as [w [W1 W2]]. exists w. split; [assumption|].
      rewrite FP; [lia|]. apply (down_pinned LA (S (x - i)) i) with (k := S (i + k)); [intros a b Q; apply EG; left; assumption| | |lia|apply NTA; assumption].
      - intros k' a b K' Ha Hb.
        assert (Ra : rk a = rk u + (k' - i)).
        { destruct (Nat.eq_dec k' i) as [->|N]; [rewrite Nat.sub_diag; rewrite U1 in Ha; injection Ha as <-; lia|].
          rewrite (ALA (k' - i - 1) a); [lia|lia|]. replace (S (i + (k' - i - 1))) with k' by lia. assumption. }
        destruct (Nat.eq_dec k' x) as [->|N]; [rewrite V1 in Hb; injection Hb as <-; lia|].
        rewrite (ALA (k' - i) b); [lia|lia|]. replace (S (i + (k' - i))) with (S k') by lia. assumption.
      - exists v. replace (i + S (x - i)) with (S x) by lia. auto. }
    (* the shorter stretch is not on a longest path *)
    assert (NXT : forall k w z, k < x - i -> nth_error A (i + k) = Some w -> edge g w z -> nth_error LA (S (S (i + k))) = Some z).
    { intros k w z K Hw E. apply EG in E as [E|E].
      - apply pairs_nth_inv in E as [q [Q1 Q2]]. assert (q = S (i + k)) by (apply (nth_unique LA _ _ w NA); [assumption|apply NTA; assumption]). subst q. assumption.
      - exfalso. apply (NS (i + k) w); [lia|assumption|]. apply in_pairs_l in E. assumption. }
    assert (UP : forall d k w, k + d = x - i -> 0 < d -> nth_error A (i + k) = Some w -> ~ pinned g rk w).
    { induction d as [|d IH]; intros k w E D Hw P; [lia|]. inversion P as [Q|w' z Pz Ez Rz Q]; subst.
      - apply (NS (i + k) v_end); [lia|assumption|]. right. apply in_or_app. right. left. reflexivity.
      - pose proof (NXT k w z ltac:(lia) Hw Ez) as Hz. pose proof (ALA k w ltac:(lia) (NTA _ _ Hw)) as Rw. destruct d as [|d].
        + replace (S (S (i + k))) with (S x) in Hz by lia. rewrite V1 in Hz. injection Hz as <-. lia.
        + destruct (RA (S k)) as [z' [Z1 Z2]]; [lia|]. replace (i + S k) with (S (i + k)) in Z1 by lia. pose proof (NTA _ _ Z1) as Z3. rewrite Hz in Z3. injection Z3 as <-.
          apply (IH (S k) z); [lia|lia| |assumption]. replace (i + S k) with (S (i + k)) by lia. assumption. }
    assert (G : forall k hi nx, k <= x - i -> nth_error LA (S (i + k)) = Some nx -> f nx = S (rk u) + hi -> hi <= y - j ->
      forall k' c, nth_error (standing (fun k d => like (i + k) (j + d)) k hi) k' = Some c -> exists w, nth_error A (i + k') = Some w /\ f w = S (rk u) + c).
    { induction k as [|k IH]; intros hi nx K Hn Fn Hh k' c H; [destruct k'; discriminate|]. cbn [standing] in H.
      destruct (RA k) as [w [W1 W2]]; [lia|]. pose proof (UP (x - i - k) k w ltac:(lia) ltac:(lia) W1) as NP.
      replace (S (i + S k)) with (S (S (i + k))) in Hn by lia.
      assert (E : edge g w nx) by (apply EG; left; apply (pairs_nth LA (S (i + k))); [apply NTA; assumption|assumption]).
      assert (C : f w = S (rk u) + best (fun d => like (i + k) (j + d)) k hi /\ best (fun d => like (i + k) (j + d)) k hi < hi).
      { destruct (FS w nx NP E) as [[F1 F2]|[z [Z1 [Z2 [Z3 Z4]]]]].
        - assert (hi = S k) by lia. subst hi. unfold best. rewrite Nat.sub_diag. cbn [seq fold_left]. lia.
        - set (d := rk z - S (rk u)). assert (Kd : k <= d < hi) by (unfold d; lia).
          assert (BD : forall e, e < y - j -> exists b, nth_error B (j + e) = Some b /\ rk b = S (rk u) + e /\ pinned g rk b).
          { intros e Le. destruct (RB e Le) as [b [B1 B2]]. exists b. split; [assumption|]. split; [assumption|]. apply (PB (S (j + e))); [lia|apply NTB; assumption]. }
          destruct (BD d) as [b [B1 [B2 B3]]]; [lia|].
          assert (Zb : z = b).
          { assert (Rz : rk z = rk b) by (unfold d in B2; lia). destruct (VG z Z1) as [I|I]; apply In_nth_error in I as [q Q].
            - exfalso. destruct (le_lt_dec q i) as [L|L].
              + assert (rk z <= rk u) by (destruct (Nat.eq_dec q i) as [->|N]; [rewrite U1 in Q; injection Q as <-; lia|pose proof (MA q i z u ltac:(lia) Q U1); lia]). lia.
              + destruct (le_lt_dec (S x) q) as [L2|L2].
                * assert (rk v <= rk z) by (destruct (Nat.eq_dec q (S x)) as [->|N]; [rewrite V1 in Q; injection Q as <-; lia|pose proof (MA (S x) q v z ltac:(lia) V1 Q); lia]). lia.
                * destruct (RA (q - 1 - i)) as [z' [Q1 Q2]]; [lia|]. pose proof (NTA _ _ Q1) as Q3. replace (S (i + (q - 1 - i))) with q in Q3 by lia. rewrite Q in Q3. injection Q3 as <-.
                  apply (UP (x - i - (q - 1 - i)) (q - 1 - i) z); [lia|lia|assumption|assumption].
            - pose proof (NTB _ _ B1) as B4. destruct (lt_eq_lt_dec q (S (j + d))) as [[L|L]|L]; [pose proof (MB _ _ _ _ L Q B4); lia|subst q; congruence|pose proof (MB _ _ _ _ L B4 Q); lia]. }
          subst z. assert (BE : best (fun e => like (i + k) (j + e)) k hi = d).
          { apply best_unique; [assumption| |].
            - intros e Ke. destruct (BD e) as [b' [B1' [B2' B3']]]; [lia|]. rewrite <- (LK (i + k) (j + e) w b' W1 B1'), <- (LK (i + k) (j + d) w b W1 B1).
              apply (Z4 b' B3'); lia.
            - intros e Ke. destruct (BD e) as [b' [B1' [B2' B3']]]; [lia|]. rewrite <- (LK (i + k) (j + e) w b' W1 B1'), <- (LK (i + k) (j + d) w b W1 B1).
              apply (Z4 b' B3'); lia. }
          rewrite BE. unfold d. lia. }
      destruct C as [C1 C2]. destruct (Nat.eq_dec k' k) as [->|Nk].
      - rewrite nth_error_app2 in H by (rewrite standing_length; lia). rewrite standing_length, Nat.sub_diag in H. injection H as <-. exists w. auto.
      - assert (LK' : k' < k).
        { assert (k' < length (standing (fun k d => like (i + k) (j + d)) k (best (fun d => like (i + k) (j + d)) k hi) ++ [best (fun d => like (i + k) (j + d)) k hi])) by (apply nth_error_Some; congruence).
          rewrite app_length, standing_length in H0. cbn [length] in H0. lia. }
        rewrite nth_error_app1 in H by (rewrite standing_length; lia).
        apply (IH (best (fun d => like (i + k) (j + d)) k hi) w) with (k' := k'); [lia|apply NTA; assumption|assumption|lia|assumption]. }
    intros k c H. apply (G (x - i) (y - j) v) with (k' := k); [lia|replace (i + (x - i)) with x by lia; assumption|rewrite (FP v PV); assumption|lia|assumption].
  Qed.
End OneGap.

(** ** All columns *)
Section TwoNear.
  Variables (g : graph) (wp1 wp2 : wpath) (rk : vid -> nat) (m : nat) (l : list vid).
  Hypothesis GI : graph_of g [wp1; wp2].
  Hypothesis RO : rank_ok g rk m l.
  Variables (ratio : str -> str -> Q) (f : vid -> nat) (like12 like21 : nat -> nat -> Q).
  Hypothesis FP : forall x, pinned g rk x -> f x = rk x.
  Hypothesis FI : inc g f.
  Hypothesis FS : forall src v, ~ pinned g rk src -> edge g src v -> settled g rk ratio f src v.
  Let a := map fst (snd wp1).
  Let b := map fst (snd wp2).
  Hypothesis LK12 : forall x y va vb, nth_error a x = Some va -> nth_error b y = Some vb -> alike ratio g va vb = like12 x y.
  Hypothesis LK21 : forall x y va vb, nth_error b x = Some va -> nth_error a y = Some vb -> alike ratio g va vb = like21 x y.
  Let L1 := v_start :: a ++ [v_end].
  Let L2 := v_start :: b ++ [v_end].

  Lemma near_gap_ranks : forall i j u x y v, nth_error L1 i = Some u -> nth_error L2 j = Some u -> i <= x -> j <= y ->
    x <= length a -> y <= length b -> nth_error L1 (S x) = Some v -> nth_error L2 (S y) = Some v ->
    (forall q w, i <= q < x -> nth_error a q = Some w -> ~ In w b) ->
    (forall q w, j <= q < y -> nth_error b q = Some w -> ~ In w a) ->
    placed_at a b f (S (rk u)) (near_gap like12 like21 i x j y).
  Proof.
    intros i j u x y v U1 U2 X Y LX LY V1 V2 N1 N2.
    pose proof (two_nodup1 g wp1 wp2 GI) as ND1. pose proof (two_nodup2 g wp1 wp2 GI) as ND2.
    destruct (gap_ranks a b v_start v_end rk ND1 ND2 (two_one1 g wp1 wp2 rk m l GI RO) (two_one2 g wp1 wp2 rk m l GI RO) (two_both g wp1 wp2 rk m l GI RO)
      i j u x y v U1 U2 X Y LX LY V1 V2 N1 N2) as [G1 G2]. rewrite gap_length in G2.
    assert (RA : forall k, k < x - i -> exists w, nth_error a (i + k) = Some w /\ rk w = S (rk u) + k).
    { intros k K. destruct (G1 k _ (gap_nth i x j y k ltac:(lia))) as [Q _]. apply Q. cbn [fst]. destruct (i + k <? x) eqn:E; [reflexivity|apply Nat.ltb_ge in E; lia]. }
    assert (RB : forall k, k < y - j -> exists w, nth_error b (j + k) = Some w /\ rk w = S (rk u) + k).
    { intros k K. destruct (G1 k _ (gap_nth i x j y k ltac:(lia))) as [_ Q]. apply Q. cbn [snd]. destruct (j + k <? y) eqn:E; [reflexivity|apply Nat.ltb_ge in E; lia]. }
    assert (EG : forall u v, edge g u v <-> In (u, v) (pairs L1) \/ In (u, v) (pairs L2)) by apply (two_edge g wp1 wp2 GI).
    assert (EG' : forall u v, edge g u v <-> In (u, v) (pairs L2) \/ In (u, v) (pairs L1)) by (intros; rewrite EG; tauto).
    assert (PV : pinned g rk v).
    { apply (shared_pinned g [wp1; wp2] rk m l GI RO L1 L2 a b ND1 ND2 eq_refl eq_refl EG); apply nth_error_In in V1, V2; assumption. }
    assert (VG : forall x, pinned g rk x -> In x L1 \/ In x L2) by (intros z Pz; apply (two_vertex g wp1 wp2 GI); apply (pinned_In g [wp1; wp2] rk GI z Pz)).
    assert (VG' : forall x, pinned g rk x -> In x L2 \/ In x L1) by (intros z Pz; destruct (VG z Pz); auto).
    unfold near_gap. destruct (x - i <=? y - j) eqn:E; [apply Nat.leb_le in E|apply Nat.leb_gt in E].
    - destruct (short_gap g rk ratio f a b ND1 EG VG (two_mono1 g wp1 wp2 rk m l GI RO) (two_mono2 g wp1 wp2 rk m l GI RO) FP FS like12 i j u x y v U1 U2 X Y LX LY V1 V2) as [S1 S2];
        [intros q w K Hw; apply (own_a a b v_start v_end ND1 q w Hw); apply (N1 q); assumption|assumption|assumption|lia|assumption|assumption|assumption|].
      intros k c H. rewrite nth_error_map in H. destruct (nth_error (seq 0 (y - j)) k) as [k'|] eqn:K; [|discriminate]. cbn [option_map] in H. injection H as <-.
      assert (LK : k < y - j) by (rewrite <- (seq_length (y - j) 0); apply nth_error_Some; congruence). rewrite nth_error_seq in K by assumption. injection K as <-. cbn [fst snd]. try rewrite Nat.add_0_l. split.
      + intros q Q. apply in_column_spec in Q as [Q1 Q2]. destruct (S2 _ _ Q2) as [w [W1 W2]]. exists w. split; [|assumption]. replace q with (i + (q - i)) by lia. assumption.
      + intros q Q. injection Q as <-. apply S1. assumption.
    - destruct (short_gap g rk ratio f b a ND2 EG' VG' (two_mono2 g wp1 wp2 rk m l GI RO) (two_mono1 g wp1 wp2 rk m l GI RO) FP FS like21 j i u y x v U2 U1 Y X LY LX V2 V1) as [S1 S2];
        [intros q w K Hw; apply (own_b a b v_start v_end ND2 q w Hw); apply (N2 q); assumption|assumption|assumption|lia|lia|assumption|assumption|].
      intros k c H. rewrite nth_error_map in H. destruct (nth_error (seq 0 (x - i)) k) as [k'|] eqn:K; [|discriminate]. cbn [option_map] in H. injection H as <-.
      assert (LK : k < x - i) by (rewrite <- (seq_length (x - i) 0); apply nth_error_Some; congruence). rewrite nth_error_seq in K by assumption. injection K as <-. cbn [fst snd]. try rewrite Nat.add_0_l. split.
      + intros q Q. injection Q as <-. apply S1. assumption.
      + intros q Q. apply in_column_spec in Q as [Q1 Q2]. destruct (S2 _ _ Q2) as [w [W1 W2]]. exists w. split; [|assumption]. replace q with (j + (q - j)) by lia. assumption.
  Qed.

  Lemma near_ranks : forall P i j u, nth_error L1 i = Some u -> nth_error L2 j = Some u -> i <= length a -> j <= length b -> StronglySorted up P ->
    (forall x y, In (x, y) P <-> i <= x /\ j <= y /\ exists v, nth_error a x = Some v /\ nth_error b y = Some v) ->
    placed_at a b f (S (rk u)) (near_layout like12 like21 i j (length a) (length b) P).
  Proof.
    pose proof (two_nodup1 g wp1 wp2 GI) as ND1. pose proof (two_nodup2 g wp1 wp2 GI) as ND2.
    pose proof (two_mono1 g wp1 wp2 rk m l GI RO) as MONO1. pose proof (two_mono2 g wp1 wp2 rk m l GI RO) as MONO2.
    assert (EG : forall u v, edge g u v <-> In (u, v) (pairs L1) \/ In (u, v) (pairs L2)) by apply (two_edge g wp1 wp2 GI).
    assert (AN : forall i v, nth_error a i = Some v -> nth_error L1 (S i) = Some v) by (intros; apply a_nth; assumption).
    assert (BN : forall i v, nth_error b i = Some v -> nth_error L2 (S i) = Some v) by (intros; apply b_nth; assumption).
    assert (A1 : forall i j u q q' w, nth_error L1 i = Some u -> nth_error L2 j = Some u -> i <= q -> nth_error a q = Some w -> nth_error b q' = Some w -> j <= q').
    { intros i j u q q' w U1 U2 Q Hw Hq. destruct (le_lt_dec j q') as [|C]; [assumption|exfalso].
      assert (rk u < rk w) by (apply (MONO1 i (S q) u w); [lia|assumption|apply AN; assumption]).
      destruct (le_lt_dec j (S q')) as [D|D].
      * assert (j = S q') by lia. subst j. rewrite (BN _ _ Hq) in U2. injection U2 as ->. lia.
      * pose proof (MONO2 (S q') j w u D (BN _ _ Hq) U2). lia. }
    assert (A2 : forall i j u q q' w, nth_error L1 i = Some u -> nth_error L2 j = Some u -> j <= q -> nth_error b q = Some w -> nth_error a q' = Some w -> i <= q').
    { intros i j u q q' w U1 U2 Q Hw Hq. destruct (le_lt_dec i q') as [|C]; [assumption|exfalso].
      assert (rk u < rk w) by (apply (MONO2 j (S q) u w); [lia|assumption|apply BN; assumption]).
      destruct (le_lt_dec i (S q')) as [D|D].
      * assert (i = S q') by lia. subst i. rewrite (AN _ _ Hq) in U1. injection U1 as ->. lia.
      * pose proof (MONO1 (S q') i w u D (AN _ _ Hq) U1). lia. }
    induction P as [|[x y] P IH]; intros i j u U1 U2 LI LJ ST SH; cbn [near_layout].
    - apply near_gap_ranks with v_end; auto; [apply (L1_end a v_start v_end)|apply (L1_end b v_start v_end)| |].
      + intros q w Q Hw Hb. apply In_nth_error in Hb as [q' Hq]. apply (SH q q'). split; [lia|]. split; [apply (A1 i j u q q' w); auto; lia|eauto].
      + intros q w Q Hw Hb. apply In_nth_error in Hb as [q' Hq]. apply (SH q' q). split; [apply (A2 i j u q q' w); auto; lia|split; [lia|eauto]].
    - inversion ST as [|? ? ST1 ST2]; subst. rewrite Forall_forall in ST2.
      destruct (proj1 (SH x y) (or_introl eq_refl)) as [X [Y [v [V1 V2]]]].
      assert (LX : x < length a) by (apply nth_error_Some; congruence). assert (LY : y < length b) by (apply nth_error_Some; congruence).
      assert (PV : f v = rk v).
      { apply FP. apply (shared_pinned g [wp1; wp2] rk m l GI RO L1 L2 a b ND1 ND2 eq_refl eq_refl EG); [apply AN in V1; apply nth_error_In in V1|apply BN in V2; apply nth_error_In in V2]; assumption. }
      assert (F1 : forall q w, i <= q < x -> nth_error a q = Some w -> ~ In w b).
      { intros q w Q Hw Hb. apply In_nth_error in Hb as [q' Hq]. assert (H : In (q, q') ((x, y) :: P)).
        { apply SH. split; [lia|]. split; [apply (A1 i j u q q' w); auto; lia|eauto]. }
        destruct H as [H|H]; [injection H as -> _; lia|]. apply ST2 in H. unfold up in H. cbn [fst snd] in H. lia. }
      assert (F2 : forall q w, j <= q < y -> nth_error b q = Some w -> ~ In w a).
      { intros q w Q Hw Hb. apply In_nth_error in Hb as [q' Hq]. assert (H : In (q', q) ((x, y) :: P)).
        { apply SH. split; [apply (A2 i j u q q' w); auto; lia|split; [lia|eauto]]. }
        destruct H as [H|H]; [injection H as _ ->; lia|]. apply ST2 in H. unfold up in H. cbn [fst snd] in H. lia. }
      pose proof (near_gap_ranks i j u x y v U1 U2 X Y ltac:(lia) ltac:(lia) (AN _ _ V1) (BN _ _ V2) F1 F2) as G1.
      destruct (gap_ranks a b v_start v_end rk ND1 ND2 (two_one1 g wp1 wp2 rk m l GI RO) (two_one2 g wp1 wp2 rk m l GI RO) (two_both g wp1 wp2 rk m l GI RO)
        i j u x y v U1 U2 X Y ltac:(lia) ltac:(lia) (AN _ _ V1) (BN _ _ V2) F1 F2) as [_ G2]. rewrite gap_length, <- (near_gap_length like12 like21) in G2.
      assert (I1 : placed_at a b f (S (rk v)) (near_layout like12 like21 (S x) (S y) (length a) (length b) P)).
      { apply IH; auto. intros x' y'. split.
        - intros Q. pose proof (ST2 _ Q) as Q2. unfold up in Q2. cbn [fst snd] in Q2. destruct (proj1 (SH x' y') (or_intror Q)) as [_ [_ Q3]]. split; [lia|]. split; [lia|assumption].
        - intros [A [B C]]. destruct (proj2 (SH x' y')) as [Q|Q]; [split; [lia|split; [lia|assumption]]|injection Q as -> ->; lia|assumption]. }
      intros k c H. destruct (lt_eq_lt_dec k (length (near_gap like12 like21 i x j y))) as [[L|E]|L].
      + rewrite nth_error_app1 in H by assumption. apply G1. assumption.
      + rewrite nth_error_app2 in H by lia. rewrite E, Nat.sub_diag in H. cbn [nth_error] in H. injection H as <-. cbn [fst snd].
        split; intros q Q; injection Q as <-; exists v; (split; [assumption|lia]).
      + rewrite nth_error_app2 in H by lia. destruct (k - length (near_gap like12 like21 i x j y)) as [|k'] eqn:K; [lia|]. cbn [nth_error] in H.
        destruct (I1 k' c H) as [A B]. split; intros q Q; [destruct (A q Q) as [w [W1 W2]]|destruct (B q Q) as [w [W1 W2]]]; exists w; (split; [assumption|lia]).
  Qed.

  (** *** The table *)
  Let W := [wp1; wp2].
  Variables (g2 : graph) (r2 : ranking) (P : list (nat * nat)).
  Hypothesis WN : without_near g2 = g.
  Hypothesis PL : placed g rk m r2.
  Hypothesis PS : forall x, In x (vertices g) -> dget Nat.eqb x (by_vertex r2) = Some (f x).
  Hypothesis ST : StronglySorted up P.
  Hypothesis SH : forall x y, In (x, y) P <-> exists v, nth_error a x = Some v /\ nth_error b y = Some v.

  Theorem near_table : forall t, construct_table [fst wp1; fst wp2] g2 r2 = Ok t ->
    let C := near_layout like12 like21 0 0 (length (snd wp1)) (length (snd wp2)) P in
    (exists c1 c2, t_rows t = [{| r_header := fst wp1; r_cells := c1 |}; {| r_header := fst wp2; r_cells := c2 |}] /\
      Forall2 (cell_is wp1) (map fst C) c1 /\ Forall2 (cell_is wp2) (map snd C) c2) /\
    Forall2 (fun c col => c_variant col = false <-> exists x y, c = (Some x, Some y) /\ In (x, y) P) C (t_columns t).
  Proof.
    intros t HT. cbv zeta.
    assert (NW : W <> []) by discriminate.
    assert (LA : length a = length (snd wp1)) by apply map_length. assert (LB : length b = length (snd wp2)) by apply map_length.
    assert (R0 : rk v_start = 0) by apply (rank_start g _ rk m l GI RO).
    assert (PT : placed_at a b f 1 (near_layout like12 like21 0 0 (length a) (length b) P)).
    { rewrite <- R0 at 1. apply near_ranks; auto; try lia. intros x y. rewrite SH. split; [intros Q; split; [lia|split; [lia|exact Q]]|intros [_ [_ Q]]; exact Q]. }
    assert (LC : length (near_layout like12 like21 0 0 (length a) (length b) P) = m - 2).
    { rewrite near_layout_length.
      destruct (layout_ranks a b v_start v_end rk (two_nodup1 g wp1 wp2 GI) (two_nodup2 g wp1 wp2 GI) (two_one1 g wp1 wp2 rk m l GI RO) (two_one2 g wp1 wp2 rk m l GI RO)
        (two_both g wp1 wp2 rk m l GI RO) (two_mono1 g wp1 wp2 rk m l GI RO) (two_mono2 g wp1 wp2 rk m l GI RO) P 0 0 v_start) as [_ RE]; auto; try lia.
      { intros x y. rewrite SH. split; [intros Q; split; [lia|split; [lia|exact Q]]|intros [_ [_ Q]]; exact Q]. }
      pose proof (rank_end_max g W rk m l GI RO NW). lia. }
    rewrite LA, LB in *. set (C := near_layout like12 like21 0 0 (length (snd wp1)) (length (snd wp2)) P) in *.
    assert (HP : forall p, In p W -> StronglySorted (fun a b : vid * list token => f (fst a) < f (fst b)) (snd p)).
    { intros p Hp. assert (G : forall l a b, snd p = a ++ l ++ b -> StronglySorted (fun a b : vid * list token => f (fst a) < f (fst b)) l).
      { induction l0 as [|x l' IH]; intros a0 b0 Eq; constructor.
        - apply (IH (a0 ++ [x]) b0). rewrite <- app_assoc. exact Eq.
        - apply Forall_forall. intros y Hy. apply in_split in Hy as [d1 [d2 ->]].
          apply (inc_list g (chain p) (fun u v Hu => proj2 (graph_edge_path g W u v GI) (ex_intro _ p (conj Hp Hu))) f (v_start :: map fst a0) (fst x) (map fst d1) (fst y) (map fst (d2 ++ b0) ++ [v_end]) FI).
          unfold chain. rewrite Eq, !map_app. cbn [map app]. rewrite !map_app. cbn [map app]. repeat (rewrite <- !app_assoc; cbn [app]). reflexivity. }
      apply (G (snd p) [] []). rewrite app_nil_r. reflexivity. }
    assert (HD : forall k vs, In (k, vs) (by_rank r2) -> dget Nat.eqb k (by_rank r2) = Some vs).
    { intros k vs I. apply (In_dget _ nat_eqb_ok); [|assumption]. rewrite (pd_keys _ _ _ _ PL). apply seq_NoDup. }
    assert (HV : forall k vs, In (k, vs) (by_rank r2) -> NoDup vs /\ forall v, In v vs <-> In v (vertices g) /\ f v = k).
    { intros k vs I. destruct (pd_lists _ _ _ _ PL k vs (HD k vs I)) as [B1 B2]. split; [assumption|]. intros v. split.
      - intros Hv. pose proof (B2 v Hv) as D. destruct (pd_at _ _ _ _ PL v k D) as [Hg _]. split; [assumption|]. rewrite (PS v Hg) in D. congruence.
      - intros [Hg <-]. destruct (pd_at _ _ _ _ PL v _ (PS v Hg)) as [_ [vs' [D1 D2]]]. rewrite (HD _ _ I) in D1. congruence. }
    unfold construct_table in HT. apply bind_ok in HT as [cols [HC HT]]. injection HT as <-. cbn [t_rows t_columns].
    change (construct_columns g2 (length [fst wp1; fst wp2]) (by_rank r2)) with (construct_columns (without_near g2) (length [fst wp1; fst wp2]) (by_rank r2)) in HC.
    rewrite WN, (columns_spec g W f (by_rank r2) GI HP HV) in HC. injection HC as <-. cbn [length].
    set (RS := filter (fun rvs => existsb inner (snd rvs)) (by_rank r2)) in *.
    destruct (placed_ranks g W rk m l r2 GI NW RO PL) as [RF _]. fold RS in RF.
    assert (LR : length RS = length C) by (rewrite LC, <- (map_length fst), RF, seq_length; reflexivity).
    assert (RK : forall k r vs, nth_error RS k = Some (r, vs) -> r = S k /\ NoDup vs /\ forall v, In v vs <-> In v (vertices g) /\ f v = S k).
    { intros k r vs H. pose proof H as H'. apply (map_nth_error fst) in H. rewrite RF in H. cbn [fst] in H.
      assert (L : k < m - 2) by (rewrite <- (seq_length (m - 2) 1); apply nth_error_Some; congruence). rewrite nth_error_seq in H by assumption. injection H as <-.
      split; [reflexivity|]. apply HV. apply nth_error_In in H'. unfold RS in H'. apply filter_In in H'. tauto. }
    assert (CV : forall p k r vs, In p W -> nth_error RS k = Some (r, vs) ->
      (forall v ts, In (v, ts) (snd p) -> f v = S k -> dget str_eqb (fst p) (cells_of W vs) = Some ts) /\
      ((forall v ts, In (v, ts) (snd p) -> f v <> S k) -> dget str_eqb (fst p) (cells_of W vs) = None)).
    { intros p k r vs Hp Hr. destruct (RK k r vs Hr) as [_ [NV V]].
      assert (CO : dget str_eqb (fst p) (cells_of W vs) = None \/ exists v ts, In v vs /\ In (v, ts) (snd p) /\ dget str_eqb (fst p) (cells_of W vs) = Some ts).
      { destruct (dget str_eqb (fst p) (cells_of W vs)) as [ts|] eqn:D; auto. right.
        apply (dget_In _ str_eqb_ok) in D. apply in_flat_map in D as [v [Hv D]]. apply tokens_on_In in D as [q [Q1 [Q2 Q3]]].
        assert (q = p) by (apply (sigil_unique g W GI); congruence). subst q. exists v, ts. apply (dget_In _ nat_eqb_ok) in Q3. auto. }
      split.
      - intros v ts Hi R. destruct CO as [D|[v' [ts' [A [B D]]]]].
        + exfalso. assert (Hv : In v vs) by (apply V; split; [apply (gi_on _ _ GI p v ts Hp Hi)|assumption]).
          assert (K : In (fst p) (map fst (cells_of W vs))).
          { apply in_map_iff. exists (fst p, ts). split; [reflexivity|]. apply in_flat_map. exists v. split; [assumption|]. apply tokens_on_In. exists p.
            split; [assumption|]. split; [reflexivity|]. apply (In_dget _ nat_eqb_ok); [apply (path_uniq g W GI p Hp)|assumption]. }
          destruct (dget_Some_key _ str_eqb_ok _ _ K) as [x E]. congruence.
        + rewrite D. apply V in A as [_ A]. destruct (same_rank W f HP p v' ts' v ts Hp B Hi) as [_ ->]; [congruence|reflexivity].
      - intros N. destruct CO as [D|[v' [ts' [A [B D]]]]]; [assumption|]. exfalso. apply V in A as [_ A]. apply (N v' ts' B A). }
    assert (IN : forall x y, In (x, y) P -> 0 <= x < length (snd wp1) /\ 0 <= y < length (snd wp2)).
    { intros x y Q. apply SH in Q as [v [Q1 Q2]]. assert (x < length a) by (apply nth_error_Some; congruence). assert (y < length b) by (apply nth_error_Some; congruence). lia. }
    assert (NTA : forall x v, nth_error a x = Some v -> exists ts, nth_error (snd wp1) x = Some (v, ts)).
    { intros x v Q. unfold a in Q. rewrite nth_error_map in Q. destruct (nth_error (snd wp1) x) as [[v' ts]|]; [|discriminate]. cbn in Q. injection Q as ->. eauto. }
    assert (NTB : forall x v, nth_error b x = Some v -> exists ts, nth_error (snd wp2) x = Some (v, ts)).
    { intros x v Q. unfold b in Q. rewrite nth_error_map in Q. destruct (nth_error (snd wp2) x) as [[v' ts]|]; [|discriminate]. cbn in Q. injection Q as ->. eauto. }
    assert (H1 : In wp1 W) by (left; reflexivity). assert (H2 : In wp2 W) by (right; left; reflexivity).
    split.
    - cbn [map construct_row]. do 2 eexists. split; [reflexivity|]. split.
      + apply Forall2_pointwise; [rewrite !map_length; lia|]. intros k o c Ho Hc. rewrite !nth_error_map in *.
        destruct (nth_error C k) as [cc|] eqn:EC; [|discriminate]. cbn in Ho. injection Ho as <-.
        destruct (nth_error RS k) as [[r vs]|] eqn:ER; [|discriminate]. cbn in Hc. injection Hc as <-.
        destruct (CV wp1 k r vs H1 ER) as [V1 V2]. destruct (PT k cc EC) as [P1 _]. unfold cell_is. destruct (fst cc) as [x|] eqn:FX.
        * destruct (P1 x eq_refl) as [v [Q1 Q2]]. destruct (NTA x v Q1) as [ts Q3]. exists v, ts. split; [assumption|]. apply (V1 v); [apply nth_error_In in Q3; assumption|lia].
        * apply V2. intros v ts Hi R. apply In_nth_error in Hi as [x Hx]. assert (XL : x < length (snd wp1)) by (apply nth_error_Some; congruence).
          assert (Q := near_first like12 like21 P 0 0 (length (snd wp1)) (length (snd wp2)) x ST IN ltac:(lia)). fold C in Q. apply In_nth_error in Q as [k' Q].
          rewrite nth_error_map in Q. destruct (nth_error C k') as [c'|] eqn:EC'; [|discriminate]. cbn in Q. injection Q as Q.
          destruct (PT k' c' EC') as [P1' _]. destruct (P1' x Q) as [v' [Q1 Q2]]. destruct (NTA x v' Q1) as [ts' Q3]. rewrite Hx in Q3. injection Q3 as <- _.
          assert (k' = k) by lia. subst k'. rewrite EC in EC'. injection EC' as <-. congruence.
      + apply Forall2_pointwise; [rewrite !map_length; lia|]. intros k o c Ho Hc. rewrite !nth_error_map in *.
        destruct (nth_error C k) as [cc|] eqn:EC; [|discriminate]. cbn in Ho. injection Ho as <-.
        destruct (nth_error RS k) as [[r vs]|] eqn:ER; [|discriminate]. cbn in Hc. injection Hc as <-.
        destruct (CV wp2 k r vs H2 ER) as [V1 V2]. destruct (PT k cc EC) as [_ P1]. unfold cell_is. destruct (snd cc) as [x|] eqn:FX.
        * destruct (P1 x eq_refl) as [v [Q1 Q2]]. destruct (NTB x v Q1) as [ts Q3]. exists v, ts. split; [assumption|]. apply (V1 v); [apply nth_error_In in Q3; assumption|lia].
        * apply V2. intros v ts Hi R. apply In_nth_error in Hi as [x Hx]. assert (XL : x < length (snd wp2)) by (apply nth_error_Some; congruence).
          assert (Q := near_second like12 like21 P 0 0 (length (snd wp1)) (length (snd wp2)) x ST IN ltac:(lia)). fold C in Q. apply In_nth_error in Q as [k' Q].
          rewrite nth_error_map in Q. destruct (nth_error C k') as [c'|] eqn:EC'; [|discriminate]. cbn in Q. injection Q as Q.
          destruct (PT k' c' EC') as [_ P1']. destruct (P1' x Q) as [v' [Q1 Q2]]. destruct (NTB x v' Q1) as [ts' Q3]. rewrite Hx in Q3. injection Q3 as <- _.
          assert (k' = k) by lia. subst k'. rewrite EC in EC'. injection EC' as <-. congruence.
    - apply Forall2_pointwise; [rewrite map_length; lia|]. intros k c col EC Hc. rewrite nth_error_map in Hc.
      destruct (nth_error RS k) as [[r vs]|] eqn:ER; [|discriminate]. cbn in Hc. injection Hc as <-.
      destruct (RK k r vs ER) as [_ [NV V]]. cbn [c_variant mkcol snd]. split.
      + intros Q. apply orb_false_iff in Q as [Q1 Q2]. apply Nat.ltb_ge in Q1. apply negb_false_iff in Q2. apply Nat.eqb_eq in Q2. cbn [length] in Q2.
        destruct vs as [|v [|? ?]]; [discriminate| |cbn [length] in Q1; lia]. unfold cells_of in Q2. cbn [flat_map] in Q2. rewrite app_nil_r in Q2.
        unfold tokens_on, W in Q2. cbn [flat_map] in Q2.
        destruct (dget Nat.eqb v (snd wp1)) as [ts1|] eqn:D1; [|destruct (dget Nat.eqb v (snd wp2)); discriminate].
        destruct (dget Nat.eqb v (snd wp2)) as [ts2|] eqn:D2; [|discriminate].
        apply (dget_In _ nat_eqb_ok) in D1, D2. apply (in_map fst) in D1, D2. cbn [fst] in D1, D2. fold a in D1. fold b in D2.
        apply In_nth_error in D1 as [x D1]. apply In_nth_error in D2 as [y D2].
        assert (HP2 : In (x, y) P) by (apply SH; eauto). pose proof (near_pair like12 like21 P 0 0 (length (snd wp1)) (length (snd wp2)) x y HP2) as HC. fold C in HC.
        apply In_nth_error in HC as [k' HC]. destruct (PT k' _ HC) as [PX _]. destruct (PX x eq_refl) as [v' [Q3 Q4]]. rewrite D1 in Q3. injection Q3 as <-.
        destruct (proj1 (V v) (or_introl eq_refl)) as [_ RV]. assert (k' = k) by lia. subst k'. rewrite EC in HC. injection HC as ->. eauto.
      + intros [x [y [-> HP2]]]. apply SH in HP2 as [v [D1 D2]]. destruct (PT k _ EC) as [PX _]. destruct (PX x eq_refl) as [v' [Q3 Q4]]. rewrite D1 in Q3. injection Q3 as <-.
        assert (FM1 : forall i j u v, i < j -> nth_error (chain wp1) i = Some u -> nth_error (chain wp1) j = Some v -> f u < f v).
        { intros i j u w. apply chain_mono. intros a0 b0 Q. apply FI. apply (two_edge g wp1 wp2 GI). left. assumption. }
        assert (FM2 : forall i j u v, i < j -> nth_error (chain wp2) i = Some u -> nth_error (chain wp2) j = Some v -> f u < f v).
        { intros i j u w. apply chain_mono. intros a0 b0 Q. apply FI. apply (two_edge g wp1 wp2 GI). right. assumption. }
        assert (U : forall u, In u vs -> u = v).
        { intros u Hu. apply V in Hu as [U1 U2]. apply (two_vertex g wp1 wp2 GI) in U1 as [U1|U1]; apply In_nth_error in U1 as [q U1].
          - pose proof (a_nth a v_start v_end x v D1) as D. destruct (lt_eq_lt_dec q (S x)) as [[Z|Z]|Z].
            + pose proof (FM1 _ _ _ _ Z U1 D). lia.
            + subst q. change (chain wp1) with (v_start :: a ++ [v_end]) in U1. congruence.
            + pose proof (FM1 _ _ _ _ Z D U1). lia.
          - pose proof (b_nth b v_start v_end y v D2) as D. destruct (lt_eq_lt_dec q (S y)) as [[Z|Z]|Z].
            + pose proof (FM2 _ _ _ _ Z U1 D). lia.
            + subst q. change (chain wp2) with (v_start :: b ++ [v_end]) in U1. congruence.
            + pose proof (FM2 _ _ _ _ Z D U1). lia. }
        assert (Hv : In v vs).
        { apply V. split; [|lia]. apply (two_vertex g wp1 wp2 GI). left. apply nth_error_In in D1. right. apply in_or_app. left. assumption. }
        assert (VS : vs = [v]).
        { destruct vs as [|u1 [|u2 r']]; [destruct Hv|f_equal; apply U; left; reflexivity|]. exfalso. rewrite (U u1), (U u2) in NV by (cbn; auto). inversion NV as [|? ? N _]. apply N. left. reflexivity. }
        subst vs. unfold cells_of, tokens_on, W. cbn [flat_map length Nat.ltb Nat.leb orb].
        apply nth_error_In in D1, D2. destruct (dget_Some_key _ nat_eqb_ok v (snd wp1) D1) as [t1 ->]. destruct (dget_Some_key _ nat_eqb_ok v (snd wp2) D2) as [t2 ->]. reflexivity.
  Qed.
End TwoNear.
